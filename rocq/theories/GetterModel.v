(** Functions of the API that fill an array of the application:
    [ccs_..._get_...(object, num, array, num_ret)].

    The memory of a call are the arrays given to it, with the contents that they have (None: a
    NULL pointer; an array may have more cells than [num] says), and the place for the number,
    with its contents (None: a NULL pointer). Writing outside an array is undefined.
    Handles are addresses, 0 is NULL. The evaluation of expressions is in ExprModel, here it
    is given; so are the comparisons of features (CmpModel). Failing allocations are not
    modelled (ccs_expression_get_parameters makes a temporary array). *)
From Coq Require Import ZArith List Bool.
From Verif Require Import Base Datum CodecModel FloatModel TreeModel.
Import ListNotations.
Open Scope Z_scope.

(** ** Memory and statements *)
Record mem (A B : Type) := mkMem { m_a : option (list A); m_b : option (list B); m_n : option Z }.
Arguments mkMem {A B}. Arguments m_a {A B}. Arguments m_b {A B}. Arguments m_n {A B}.
(** A statement goes on, returns an error code, or is undefined. *)
Inductive out (A B : Type) := Next (m : mem A B) | Stop (code : Z) (m : mem A B) | Undef (why : ub).
Arguments Next {A B}. Arguments Stop {A B}. Arguments Undef {A B}.
Definition prog (A B : Type) := mem A B -> out A B.

Section Statements.
  Context {A B : Type}.
  Definition skip : prog A B := Next.
  Definition seq (p q : prog A B) : prog A B := fun m => match p m with Next m' => q m' | r => r end.
  (** CCS_REFUTE: cconfigspace_internal.h 115-119 *)
  Definition deny (cond : bool) (code : Z) : prog A B := fun m => if cond then Stop code m else Next m.
  Definition is_null {T : Type} (p : option T) : bool := match p with None => true | Some _ => false end.
  (** a condition on pointers *)
  Definition deny_if (cond : mem A B -> bool) (code : Z) : prog A B := fun m => deny (cond m) code m.
  Definition when (cond : mem A B -> bool) (p : prog A B) : prog A B := fun m => if cond m then p m else Next m.
  (** CCS_CHECK_ARY: cconfigspace_internal.h 109-113, on the first and on the second array *)
  Definition check_a (num : Z) : prog A B := deny_if (fun m => (0 <? num) && is_null (m_a m)) ERR_INVALID_VALUE.
  Definition check_b (num : Z) : prog A B := deny_if (fun m => (0 <? num) && is_null (m_b m)) ERR_INVALID_VALUE.
  (** [!array && !num_ret] *)
  Definition nothing_asked : prog A B := deny_if (fun m => is_null (m_a m) && is_null (m_n m)) ERR_INVALID_VALUE.
  Definition has_a (m : mem A B) : bool := negb (is_null (m_a m)).
  Definition has_n (m : mem A B) : bool := negb (is_null (m_n m)).
  (** changing a cell *)
  Definition cell {T : Type} (i : Z) (f : T -> T) (l : list T) : option (list T) :=
    if i <? 0 then None else
    match nth_error l (Z.to_nat i) with
    | Some x => Some (firstn (Z.to_nat i) l ++ f x :: skipn (S (Z.to_nat i)) l)
    | None => None
    end.
  Definition update_a (i : Z) (f : A -> A) : prog A B := fun m =>
    match m_a m with
    | Some l => match cell i f l with Some l' => Next (mkMem (Some l') (m_b m) (m_n m)) | None => Undef UBBounds end
    | None => Undef UBBounds
    end.
  Definition update_b (i : Z) (f : B -> B) : prog A B := fun m =>
    match m_b m with
    | Some l => match cell i f l with Some l' => Next (mkMem (m_a m) (Some l') (m_n m)) | None => Undef UBBounds end
    | None => Undef UBBounds
    end.
  Definition store_a (i : Z) (x : A) : prog A B := update_a i (fun _ => x).
  Definition store_b (i : Z) (x : B) : prog A B := update_b i (fun _ => x).
  Definition store_n (n : Z) : prog A B := fun m =>
    match m_n m with Some _ => Next (mkMem (m_a m) (m_b m) (Some n)) | None => Undef UBBounds end.
  (** memcpy to the first cells *)
  Definition memcpy_a (src : list A) : prog A B := fun m =>
    match m_a m with
    | Some l => if lenZ l <? lenZ src then Undef UBBounds
                else Next (mkMem (Some (src ++ skipn (length src) l)) (m_b m) (m_n m))
    | None => Undef UBBounds
    end.
  (** a loop over the elements of a container of the library, counting *)
  Fixpoint each {T : Type} (l : list T) (i : Z) (body : Z -> T -> prog A B) : prog A B :=
    match l with [] => skip | x :: l' => seq (body i x) (each l' (i + 1) body) end.
  (** for (size_t i = lo; i < hi; i++) *)
  Fixpoint times (k : nat) (i : Z) (body : Z -> prog A B) : prog A B :=
    match k with O => skip | S k' => seq (body i) (times k' (i + 1) body) end.
  Definition upto (lo hi : Z) (body : Z -> prog A B) : prog A B := times (Z.to_nat (hi - lo)) lo body.
  (** reading a cell of an array of the library *)
  Definition at_ {T : Type} (l : list T) (i : Z) (k : T -> prog A B) : prog A B := fun m =>
    if i <? 0 then Undef UBBounds else
    match nth_error l (Z.to_nat i) with Some x => k x m | None => Undef UBBounds end.
  (** a call that may fail *)
  Definition call {T : Type} (r : res T) (k : T -> prog A B) : prog A B := fun m =>
    match r with Ok x => k x m | Err c => Stop c m | UB u => Undef u end.
End Statements.
Notation "p ;; q" := (seq p q) (at level 190, right associativity).

(** The object given: not an object of the right type (or NULL, or without data), or an object
    of another kind, or what it contains.
    CCS_CHECK_OBJ: cconfigspace_internal.h 87-93, CCS_CHECK_DISTRIBUTION:
    distribution_internal.h 4-11, CCS_CHECK_PARAMETER: parameter_internal.h 4-11. *)
Inductive target (T : Type) := NoObject | OtherKind | Object (x : T).
Arguments NoObject {T}. Arguments OtherKind {T}. Arguments Object {T}.
Definition check_obj {T A B : Type} (kind : Z) (o : target T) (k : T -> prog A B) : prog A B :=
  match o with
  | NoObject => deny true ERR_INVALID_OBJECT
  | OtherKind => deny true kind
  | Object x => k x
  end.
(** types that have only one kind of objects *)
Notation check_only := (check_obj ERR_INVALID_OBJECT).

(** ** Spaces *)
(** a parameter of a context and, in configuration spaces, its condition:
    _ccs_parameter_wrapper_t, _ccs_parameter_wrapper_cs_t, context_internal.h 8-26 and
    configuration_space_internal.h *)
Record wrapper := mkWrapper { wr_parameter : Z; wr_condition : Z }.
(** context_internal.h 121-145 [_ccs_context_get_parameters], called by context.c 66-78,
    configuration_space.c 807-819, features_space.c 294-306, objective_space.c 422-434 *)
Definition context_parameters (o : target (list wrapper)) (num : Z) : prog Z unit :=
  check_only o (fun parameters =>
    check_a num ;; nothing_asked ;;
    (let size := lenZ parameters in
     when has_a (
       deny (num <? size) ERR_INVALID_VALUE ;;
       each parameters 0 (fun index w => store_a index (wr_parameter w)) ;;
       upto size num (fun i => store_a i 0)) ;;
     when has_n (store_n size))).
(** configuration_space.c 1354-1384 [ccs_configuration_space_get_conditions] *)
Definition space_conditions (o : target (list wrapper)) (num : Z) : prog Z unit :=
  check_only o (fun parameters =>
    check_a num ;; nothing_asked ;;
    (let num_parameters := lenZ parameters in
     when has_a (
       deny (num <? num_parameters) ERR_INVALID_VALUE ;;
       each parameters 0 (fun index w => store_a index (wr_condition w)) ;;
       upto num_parameters num (fun i => store_a i 0)) ;;
     when has_n (store_n num_parameters))).
(** 1457-1487 [ccs_configuration_space_get_forbidden_clauses] *)
Definition space_forbidden_clauses (o : target (list Z)) (num : Z) : prog Z unit :=
  check_only o (fun clauses =>
    check_a num ;; nothing_asked ;;
    (let size := lenZ clauses in
     when has_a (
       deny (num <? size) ERR_INVALID_VALUE ;;
       each clauses 0 (fun index e => store_a index e) ;;
       upto size num (fun i => store_a i 0)) ;;
     when has_n (store_n size))).
(** objective_space.c 554-588 [ccs_objective_space_get_objectives]: the expressions and the
    types of the objectives; CCS_OBJECTIVE_TYPE_MINIMIZE is 0 *)
Definition space_objectives (o : target (list (Z * Z))) (num : Z) : prog Z Z :=
  check_only o (fun objectives =>
    check_a num ;; check_b num ;; nothing_asked ;;
    (let size := lenZ objectives in
     when has_a (
       deny (num <? size) ERR_INVALID_VALUE ;;
       each objectives 0 (fun index o => store_a index (fst o) ;; store_b index (snd o)) ;;
       upto size num (fun i => store_a i 0 ;; store_b i 0)) ;;
     when has_n (store_n size))).
(** binding_internal.h 65-87 [_ccs_binding_get_values], called by binding.c 43-54,
    configuration.c 178-189, features.c 174-185, evaluation.c 295-306,
    features_evaluation.c 336-347, tree_evaluation.c 298-309. The padding writes the type and
    the value of the cells, and leaves their flags. *)
Definition binding_values (o : target (list datum)) (num : Z) : prog datum unit :=
  check_only o (fun values =>
    check_a num ;; nothing_asked ;;
    (let n := lenZ values in
     when has_a (
       deny (num <? n) ERR_INVALID_VALUE ;;
       memcpy_a values ;;
       upto n num (fun i => update_a i (fun d => mkDatum VNone (d_flags d)))) ;;
     when has_n (store_n n))).

(** ** Distributions *)
Record parts := mkParts { pt_distributions : list Z; pt_weights : list Z (* one cell more *) }.
(** distribution_mixture.c 444-471 [ccs_mixture_distribution_get_distributions], and
    distribution_multivariate.c 369-397 [ccs_multivariate_distribution_get_distributions] *)
Definition mixture_distributions (o : target parts) (num : Z) : prog Z unit :=
  check_obj ERR_INVALID_DISTRIBUTION o (fun data =>
    check_a num ;; nothing_asked ;;
    (let size := lenZ (pt_distributions data) in
     when has_a (
       deny (num <? size) ERR_INVALID_VALUE ;;
       upto 0 size (fun i => at_ (pt_distributions data) i (store_a i)) ;;
       upto size num (fun i => store_a i 0)) ;;
     when has_n (store_n size))).
Definition multivariate_distributions (o : target (list Z)) (num : Z) : prog Z unit :=
  check_obj ERR_INVALID_DISTRIBUTION o (fun distributions =>
    check_a num ;; nothing_asked ;;
    (let size := lenZ distributions in
     when has_a (
       deny (num <? size) ERR_INVALID_VALUE ;;
       upto 0 size (fun i => at_ distributions i (store_a i)) ;;
       upto size num (fun i => store_a i 0)) ;;
     when has_n (store_n size))).
(** distribution_mixture.c 473-499 [ccs_mixture_distribution_get_weights] *)
Definition mixture_weights (o : target parts) (num : Z) : prog Z unit :=
  check_obj ERR_INVALID_DISTRIBUTION o (fun data =>
    check_a num ;; nothing_asked ;;
    (let size := lenZ (pt_distributions data) in
     when has_a (
       deny (num <? size) ERR_INVALID_VALUE ;;
       upto 0 size (fun i => at_ (pt_weights data) (i + 1) (fun b => at_ (pt_weights data) i (fun a => store_a i (fsub b a)))) ;;
       upto size num (fun i => store_a i 0)) ;;
     when has_n (store_n size))).
(** distribution_roulette.c 291-315 [ccs_roulette_distribution_get_areas]; the number of areas
    and the table, of one cell more *)
Definition roulette_areas (o : target (Z * list Z)) (num : Z) : prog Z unit :=
  check_obj ERR_INVALID_DISTRIBUTION o (fun data =>
    check_a num ;; nothing_asked ;;
    (let size := fst data in
     when has_a (
       deny (num <? size) ERR_INVALID_VALUE ;;
       upto 0 size (fun i => at_ (snd data) (i + 1) (fun b => at_ (snd data) i (fun a => store_a i (fsub b a)))) ;;
       upto size num (fun i => store_a i 0)) ;;
     when has_n (store_n size))).

(** ** Expressions *)
(** expression.c 1602-1624 [ccs_expression_get_nodes] *)
Definition expression_nodes (o : target (list Z)) (num : Z) : prog Z unit :=
  check_only o (fun nodes =>
    check_a num ;; nothing_asked ;;
    (let count := lenZ nodes in
     when has_a (
       deny (num <? count) ERR_INVALID_VALUE ;;
       upto 0 count (fun i => at_ nodes i (store_a i)) ;;
       upto count num (fun i => store_a i 0)) ;;
     when has_n (store_n count))).
(** 1728-1779 [ccs_expression_get_parameters]. The object is given by the array of the
    parameters of its variables after sorting (ExprModel [collect_params], [sort]). *)
Fixpoint count_distinct (previous : Z) (l : list Z) : Z :=
  match l with
  | [] => 0
  | h :: l' => if negb (h =? previous) then 1 + count_distinct h l' else count_distinct previous l'
  end.
Fixpoint store_distinct (previous index : Z) (l : list Z) : prog Z unit :=
  match l with
  | [] => skip
  | h :: l' => if negb (h =? previous) then store_a index h ;; store_distinct h (index + 1) l'
               else store_distinct previous index l'
  end.
Definition expression_parameters (o : target (list Z)) (num : Z) : prog Z unit :=
  check_only o (fun sorted =>
    check_a num ;; nothing_asked ;;
    (let count := if 0 <? lenZ sorted then count_distinct 0 sorted else 0 in
     when has_a (
       deny (num <? count) ERR_INVALID_VALUE ;;
       store_distinct 0 0 sorted ;;
       upto count num (fun i => store_a i 0)) ;;
     when has_n (store_n count))).

(** ** Maps, in the order of their entries *)
(** map.c 280-304 [ccs_map_get_keys], 306-331 [ccs_map_get_values]; line 297 copies the value *)
Definition map_keys (o : target (list (datum * datum))) (num : Z) : prog datum unit :=
  check_only o (fun entries =>
    check_a num ;; nothing_asked ;;
    (let size := lenZ entries in
     when has_a (
       deny (num <? size) ERR_INVALID_VALUE ;;
       each entries 0 (fun i e => store_a i (snd e)) ;;
       upto size num (fun i => store_a i ccs_none)) ;;
     when has_n (store_n size))).
Definition map_values (o : target (list (datum * datum))) (num : Z) : prog datum unit :=
  check_only o (fun entries =>
    check_a num ;; nothing_asked ;;
    (let size := lenZ entries in
     when has_a (
       deny (num <? size) ERR_INVALID_VALUE ;;
       each entries 0 (fun i e => store_a i (snd e)) ;;
       upto size num (fun i => store_a i ccs_none)) ;;
     when has_n (store_n size))).
(** 333-365 [ccs_map_get_pairs] *)
Definition map_pairs (o : target (list (datum * datum))) (num : Z) : prog datum datum :=
  check_only o (fun entries =>
    check_a num ;; check_b num ;; nothing_asked ;;
    (let size := lenZ entries in
     when has_a (
       deny (num <? size) ERR_INVALID_VALUE ;;
       each entries 0 (fun i e => store_a i (fst e) ;; store_b i (snd e)) ;;
       upto size num (fun i => store_a i ccs_none ;; store_b i ccs_none)) ;;
     when has_n (store_n size))).

(** ** Parameters *)
(** parameter_categorical.c 388-415 [_ccs_categorical_parameter_get_values], called by
    431-443, 483-495 and 511-523. The bounds of the second loop are the other way round. *)
Definition possible_values (o : target (list datum)) (num : Z) : prog datum unit :=
  check_obj ERR_INVALID_PARAMETER o (fun values =>
    check_a num ;; nothing_asked ;;
    (let size := lenZ values in
     when has_a (
       deny (num <? size) ERR_INVALID_VALUE ;;
       upto 0 size (fun i => at_ values i (store_a i)) ;;
       upto num size (fun i => store_a i ccs_none)) ;;
     when has_n (store_n size))).

(** ** Trees. A child that does not exist is NULL. *)
(** tree.c 305-328 [ccs_tree_get_children] *)
Definition tree_children (h : heap) (o : target nat) (num : Z) : prog (option nat) unit :=
  check_only o (fun t =>
    check_a num ;; nothing_asked ;;
    call (read h t) (fun data =>
    (let arity := Z.of_nat (n_arity data) in
     when has_a (
       deny (num <? arity) ERR_INVALID_VALUE ;;
       upto 0 arity (fun i => at_ (n_children data) i (store_a i)) ;;
       upto arity num (fun i => store_a i None)) ;;
     when has_n (store_n arity)))).
(** going up [k] nodes from [t], writing at the cells [top - 1], [top - 2], ...: 417-420 and
    450-453 *)
Fixpoint climbing {A : Type} (h : heap) (what : node -> A) (k : nat) (top : Z) (t : option nat) : prog A unit :=
  match k with
  | O => skip
  | S k' =>
      match t with
      | None => fun _ => Undef UBBounds
      | Some t => call (read h t) (fun n => store_a (top - 1) (what n) ;; climbing h what k' (top - 1) (n_parent n))
      end
  end.
(** 395-427 [ccs_tree_get_position] *)
Definition tree_position (h : heap) (o : target nat) (num : Z) : prog nat unit :=
  check_only o (fun t =>
    check_a num ;; nothing_asked ;;
    call (depth_of h t) (fun depth =>
      when has_a (deny (num <? Z.of_nat depth) ERR_INVALID_VALUE) ;;
      when has_n (store_n (Z.of_nat depth)) ;;
      when has_a (
        climbing h n_index depth (Z.of_nat depth) (Some t) ;;
        upto (Z.of_nat depth) num (fun i => store_a i 0%nat)))).
(** 429-459 [ccs_tree_get_values] *)
Definition tree_values (h : heap) (o : target nat) (num : Z) : prog datum unit :=
  check_only o (fun t =>
    check_a num ;; nothing_asked ;;
    call (depth_of h t) (fun depth =>
      when has_a (deny (num <? Z.of_nat depth + 1) ERR_INVALID_VALUE) ;;
      when has_n (store_n (Z.of_nat depth + 1)) ;;
      when has_a (
        climbing h n_value (S depth) (Z.of_nat depth + 1) (Some t) ;;
        upto (Z.of_nat depth + 1) num (fun i => store_a i ccs_none)))).
(** 482-504 [ccs_tree_get_values_at_position]: it tells no number; the array of positions is
    [position] (None: NULL), of [size] cells *)
Fixpoint descending (h : heap) (t : nat) (i : Z) (position : list nat) : prog datum unit :=
  match position with
  | [] => skip
  | p :: l =>
      call (get_child h t p) (fun c =>
        match c with
        | None => deny true ERR_INVALID_TREE
        | Some c => call (read h c) (fun n => store_a i (n_value n) ;; descending h c (i + 1) l)
        end)
  end.
Definition tree_values_at (h : heap) (o : target nat) (position : list nat) (num : Z) : prog datum unit :=
  check_only o (fun t =>
    check_a num ;;
    deny (num <? lenZ position + 1) ERR_INVALID_VALUE ;;
    call (read h t) (fun n => store_a 0 (n_value n)) ;;
    descending h t 1 position ;;
    upto (lenZ position + 1) num (fun i => store_a i ccs_none)).
(** tree_configuration.c 165-187 [ccs_tree_configuration_get_position]: no padding *)
Definition configuration_position (o : target (list Z)) (num : Z) : prog Z unit :=
  check_only o (fun position =>
    check_a num ;; nothing_asked ;;
    (let size := lenZ position in
     when has_a (
       deny (num <? size) ERR_INVALID_VALUE ;;
       memcpy_a position) ;;
     when has_n (store_n size))).

(** ** Tuners *)
(** tuner.c 86-104 [ccs_tuner_get_optima] with tuner_random.c 247-271, 106-124
    [ccs_tuner_get_history] with tuner_random.c 273-297; tree_tuner.c with
    tree_tuner_random.c 249-299 *)
Definition tuner_evaluations (o : target (list Z)) (num : Z) : prog Z unit :=
  check_only o (fun evaluations =>
    check_a num ;; nothing_asked ;;
    (let count := lenZ evaluations in
     when has_a (
       deny (num <? count) ERR_INVALID_VALUE ;;
       each evaluations 0 (fun index e => store_a index e) ;;
       upto count num (fun i => store_a i 0)) ;;
     when has_n (store_n count))).
(** features_tuner.c 113-155 with features_tuner_random.c 256-377. [features]: None, or an
    object; each evaluation of the tuner is given with the result of ccs_features_cmp on its
    features and these. *)
Fixpoint count_same (l : list (Z * Z)) : Z :=
  match l with [] => 0 | e :: l' => if snd e =? 0 then count_same l' + 1 else count_same l' end.
Fixpoint store_same (index : Z) (l : list (Z * Z)) : prog Z unit :=
  match l with
  | [] => skip
  | e :: l' => if snd e =? 0 then store_a index (fst e) ;; store_same (index + 1) l' else store_same index l'
  end.
Definition features_evaluations (o : target (list (Z * Z))) (features : option (target unit)) (num : Z) : prog Z unit :=
  check_only o (fun evaluations =>
    match features with Some f => check_only f (fun _ => skip) | None => skip end ;;
    check_a num ;; nothing_asked ;;
    (match features with
     | None =>
         let size := lenZ evaluations in
         when has_a (
           deny (num <? size) ERR_INVALID_VALUE ;;
           each evaluations 0 (fun index e => store_a index (fst e)) ;;
           upto size num (fun i => store_a i 0)) ;;
         when has_n (store_n size)
     | Some _ =>
         let size := count_same evaluations in
         when has_a (
           deny (num <? size) ERR_INVALID_VALUE ;;
           store_same 0 evaluations ;;
           upto size num (fun i => store_a i 0)) ;;
         when has_n (store_n size)
     end)).

(** ** Evaluations *)
(** evaluation.c 348-381 [ccs_evaluation_get_objective_values], features_evaluation.c 392-425,
    tree_evaluation.c 350-383. The object is given by the results of evaluating its objectives
    in turn. The comparison of the sizes is the other way round. *)
Definition objective_values (o : target (list (res datum))) (num : Z) : prog datum unit :=
  check_only o (fun objectives =>
    check_a num ;; nothing_asked ;;
    (let count := lenZ objectives in
     when has_a (
       deny (count <? num) ERR_INVALID_VALUE ;;
       each objectives 0 (fun i r => call r (fun d => store_a i d)) ;;
       upto count num (fun i => store_a i ccs_none)) ;;
     when has_n (store_n count))).
