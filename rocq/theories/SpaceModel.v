(** Configuration spaces: conditions, forbidden clauses, distributions, checks and
    sampling.  Parameters and expressions are immutable; allocation succeeds; reference
    counts are not represented here. *)
From Coq Require Import ZArith List Bool.
From Verif Require Import Base Datum CmpModel ParamModel ContextModel ExprModel.
Import ListNotations.
Open Scope Z_scope.

(** struct _ccs_distribution_wrapper_s: src/configuration_space_internal.h 18-24.
    [dw_id] stands for the address of the wrapper. *)
Record dwrapper : Type := mkDW { dw_id : nat; dw_dist : Z; dw_indexes : list nat }.
(** struct _ccs_configuration_space_data_s with _ccs_parameter_wrapper_cs_s:
    src/configuration_space_internal.h 8-15, 39-49.  [s_conds] and [s_attach] (distribution
    wrapper and index in it) are indexed like the parameters.  The arrays [parents] and
    [children] are only used by [_generate_constraints], which recomputes them first. *)
Record space : Type := mkSpace {
  s_self : Z; s_ctx : context; s_conds : list (option expr); s_attach : list (nat * nat);
  s_dists : list dwrapper; s_next : nat;
  s_sorted : list nat; s_graph_ok : bool; s_forbidden : list expr }.
(** ccs_create_configuration_space: src/configuration_space.c 330-376 *)
Definition new_space (self : Z) (name : list Z) : space :=
  mkSpace self (new_context name) [] [] [] 0 [] true [].
Definition s_params (s : space) : list Z := c_params (s_ctx s).
Definition with_sorted (s : space) (l : list nat) : space :=
  mkSpace (s_self s) (s_ctx s) (s_conds s) (s_attach s) (s_dists s) (s_next s) l (s_graph_ok s) (s_forbidden s).
Definition with_graph (s : space) (b : bool) : space :=
  mkSpace (s_self s) (s_ctx s) (s_conds s) (s_attach s) (s_dists s) (s_next s) (s_sorted s) b (s_forbidden s).
Definition with_conds (s : space) (l : list (option expr)) : space :=
  mkSpace (s_self s) (s_ctx s) l (s_attach s) (s_dists s) (s_next s) (s_sorted s) (s_graph_ok s) (s_forbidden s).
Definition with_forbidden (s : space) (l : list expr) : space :=
  mkSpace (s_self s) (s_ctx s) (s_conds s) (s_attach s) (s_dists s) (s_next s) (s_sorted s) (s_graph_ok s) l.

Fixpoint update {T} (l : list T) (i : nat) (x : T) : list T :=
  match l, i with
  | [], _ => []
  | _ :: l', O => x :: l'
  | y :: l', S i' => y :: update l' i' x
  end.

(** ** The graph of conditions *)
(** qsort of sizes, then _uniq_size_t_array: src/configuration_space.c 1124-1151 *)
Fixpoint ninsert (x : nat) (l : list nat) : list nat :=
  match l with [] => [x] | y :: l' => if (x <=? y)%nat then x :: l else y :: ninsert x l' end.
Definition nsort (l : list nat) : list nat := fold_right ninsert [] l.
Fixpoint nuniq (p : nat) (l : list nat) : list nat :=
  match l with
  | [] => []
  | x :: l' => if (x =? p)%nat then nuniq p l' else x :: nuniq x l'
  end.
Definition uniq (l : list nat) : list nat :=
  match nsort l with [] => [] | x :: l' => x :: nuniq x l' end.

(** _recompute_graph: 1222-1293; parents and children of every parameter *)
Definition push_child (index : nat) (children : list (list nat)) (p : nat) : list (list nat) :=
  update children p (nth p children [] ++ [index]).
Fixpoint graph_loop (c : context) (index : nat) (conds : list (option expr)) (parents children : list (list nat))
    : res (list (list nat) * list (list nat)) :=
  match conds with
  | [] => Ok (map uniq parents, map uniq children)
  | None :: rest => graph_loop c (S index) rest parents children
  | Some e :: rest =>
      do count <- expr_get_parameters e None;
      if (snd count =? 0)%nat then graph_loop c (S index) rest parents children
      else
        do ps <- expr_get_parameters e (Some (snd count));
        do is <- get_indexes c (match fst ps with Some l => l | None => [] end);
        graph_loop c (S index) rest (update parents index is) (fold_left (push_child index) is children)
  end.
Definition recompute_graph (c : context) (conds : list (option expr)) : res (list (list nat) * list (list nat)) :=
  graph_loop c 0 conds (repeat [] (length conds)) (repeat [] (length conds)).

(** _topological_sort: 1169-1213.  [edges] are the in_edges fields, machine words; the
    loop runs while the queue is not empty. *)
Fixpoint relax (children : list nat) (edges : list Z) (queue : list nat) : list Z * list nat :=
  match children with
  | [] => (edges, queue)
  | c :: rest =>
      let d := wrap 64 (nth c edges 0 - 1) in
      relax rest (update edges c d) (if d =? 0 then queue ++ [c] else queue)
  end.
Fixpoint kahn (fuel : nat) (children : list (list nat)) (queue : list nat) (edges : list Z) (sorted : list nat)
    : res (list nat) :=
  match queue with
  | [] => Ok sorted
  | e :: queue' =>
      match fuel with
      | O => UB UBFuel
      | S fuel' =>
          let (edges1, queue1) := relax (nth e children []) edges queue' in
          kahn fuel' children queue1 edges1 (sorted ++ [e])
      end
  end.
Definition roots (parents : list (list nat)) : list nat :=
  filter (fun i => match nth i parents [] with [] => true | _ => false end) (seq 0 (length parents)).
Definition topological_sort (parents children : list (list nat)) : res (list nat) :=
  kahn (length parents) children (roots parents) (map (fun l => lenZ l) parents) [].

(** _generate_constraints: 1300-1307 *)
Definition generate_constraints (s : space) : res unit * space :=
  match recompute_graph (s_ctx s) (s_conds s) with
  | Err c => (Err c, s)
  | UB u => (UB u, s)
  | Ok (parents, children) =>
      match topological_sort parents children with
      | Err c => (Err c, s)
      | UB u => (UB u, s)
      | Ok sorted =>
          let s1 := with_sorted s sorted in
          if (length sorted <? length (s_conds s))%nat then (Err ERR_INVALID_GRAPH, s1)
          else (Ok tt, with_graph s1 true)
      end
  end.
(** the graph is recomputed before use if it is not up to date: 971-972, 988-989,
    1059-1060, 1092-1093 *)
Definition ensure_graph (s : space) : res unit * space :=
  if s_graph_ok s then (Ok tt, s) else generate_constraints s.

(** ccs_configuration_space_set_condition: 1309-1334; the index is converted to 32 bits *)
Definition set_condition (s : space) (i : Z) (e : expr) : res unit * space :=
  let i := Z.to_nat (wrap 32 i) in
  match nth_error (s_conds s) i with
  | None => (Err ERR_OUT_OF_BOUNDS, s)
  | Some (Some _) => (Err ERR_INVALID_PARAMETER, s)
  | Some None =>
      match generate_constraints (with_graph (with_conds s (update (s_conds s) i (Some e))) false) with
      | (Ok _, s1) => (Ok tt, s1)
      | (r, s1) => (r, with_conds s1 (update (s_conds s1) i None))
      end
  end.
(** ccs_configuration_space_get_condition, _get_conditions: 1336-1382 *)
Definition get_condition (s : space) (i : Z) : res (option expr) :=
  match nth_error (s_conds s) (Z.to_nat (wrap 32 i)) with Some c => Ok c | None => Err ERR_OUT_OF_BOUNDS end.
Definition get_conditions (s : space) (arr : option nat) : res (option (list (option expr)) * nat) :=
  let size := length (s_conds s) in
  match arr with
  | None => Ok (None, size)
  | Some n => do _ <- refute (n <? size)%nat ERR_INVALID_VALUE;
              Ok (Some (s_conds s ++ repeat None (n - size)), size)
  end.
(** ccs_configuration_space_get_forbidden_clause, _clauses: 1442-1491 *)
Definition get_forbidden_clause (s : space) (i : Z) : res expr :=
  match nth_error (s_forbidden s) (Z.to_nat (wrap 32 i)) with Some c => Ok c | None => Err ERR_OUT_OF_BOUNDS end.
Definition get_forbidden_clauses (s : space) (arr : option nat) : res (option (list (option expr)) * nat) :=
  let size := length (s_forbidden s) in
  match arr with
  | None => Ok (None, size)
  | Some n => do _ <- refute (n <? size)%nat ERR_INVALID_VALUE;
              Ok (Some (map Some (s_forbidden s) ++ repeat None (n - size)), size)
  end.

(** ** Values *)
(** result.type == CCS_DATA_TYPE_BOOL && result.value.i == CCS_TRUE *)
Definition is_true (d : datum) : bool := match d_val d with VBool i => i =? 1 | _ => false end.
Section Space.
  Variable heap : Z -> param.
  Variable jen : list Z -> Z.
  Definition seval (s : space) (values : list datum) (e : expr) : res datum :=
    eval heap jen (Some (s_ctx s)) (Some values) e.

  (** _set_actives: 834-858 *)
  Fixpoint actives_loop (s : space) (sorted : list nat) (values : list datum) : res (list datum) :=
    match sorted with
    | [] => Ok values
    | i :: rest =>
        match nth i (s_conds s) None with
        | None => actives_loop s rest values
        | Some e => do r <- seval s values e;
                    actives_loop s rest (if is_true r then values else update values i ccs_inactive)
        end
    end.
  Definition set_actives (s : space) (values : list datum) : res (list datum) := actives_loop s (s_sorted s) values.
  (** ccs_configuration_space_get_default_configuration: 860-888 *)
  Definition get_default_configuration (s : space) : res (list datum) :=
    set_actives s (map (fun h => p_default (heap h)) (s_params s)).

  (** _test_forbidden: 890-913 *)
  Fixpoint test_forbidden (s : space) (clauses : list expr) (values : list datum) : res bool :=
    match clauses with
    | [] => Ok true
    | e :: rest => do r <- seval s values e;
                   if is_inactive r then test_forbidden s rest values
                   else if is_true r then Ok false else test_forbidden s rest values
    end.
  (** _check_configuration: 915-960 *)
  Fixpoint check_loop (s : space) (sorted : list nat) (values : list datum) : res bool :=
    match sorted with
    | [] => test_forbidden s (s_forbidden s) values
    | i :: rest =>
        do active <- match nth i (s_conds s) None with
                     | None => Ok true
                     | Some e => do r <- seval s values e; Ok (is_true r)
                     end;
        let v := nth i values ccs_none in
        if negb (Bool.eqb active (negb (is_inactive v))) then Ok false
        else if active then
          if check_value jen (heap (nth i (s_params s) 0)) v then check_loop s rest values else Ok false
        else check_loop s rest values
    end.
  Definition check_values (s : space) (values : list datum) : res bool :=
    do _ <- refute (negb (length values =? length (s_params s))%nat) ERR_INVALID_CONFIGURATION;
    check_loop s (s_sorted s) values.
  (** ccs_configuration_space_check_configuration_values: 978-995 *)
  Definition check_configuration_values (s : space) (values : list datum) : res bool * space :=
    match ensure_graph s with
    | (Ok _, s1) => (check_values s1 values, s1)
    | (Err c, s1) => (Err c, s1)
    | (UB u, s1) => (UB u, s1)
    end.
  (** ccs_configuration_space_check_configuration: 962-976; [owner] is the space of the
      configuration *)
  Definition check_configuration (s : space) (owner : Z) (values : list datum) : res bool * space :=
    if owner =? s_self s then check_configuration_values s values else (Err ERR_INVALID_CONFIGURATION, s).

  (** ccs_configuration_space_add_forbidden_clause: 1392-1421 *)
  Definition add_forbidden_clause (s : space) (e : expr) : res unit * space :=
    let outcome :=
      do _ <- check_context e (Some (s_ctx s));
      do values <- get_default_configuration s;
      do d <- seval s values e;
      refute (is_true d) ERR_INVALID_CONFIGURATION in
    match outcome with
    | Ok _ => (Ok tt, with_forbidden s (s_forbidden s ++ [e]))
    | r => (r, s)
    end.
  (** ccs_configuration_space_add_forbidden_clauses: 1425-1438 *)
  Fixpoint add_forbidden_clauses (s : space) (l : list expr) : res unit * space :=
    match l with
    | [] => (Ok tt, s)
    | e :: l' => match add_forbidden_clause s e with
                 | (Ok _, s1) => add_forbidden_clauses s1 l'
                 | r => r
                 end
    end.

  (** ** Distributions *)
  (** ccs_distribution_get_dimension, and ccs_parameter_get_default_distribution *)
  Variable dimension : Z -> nat.
  Variable default_dist : Z -> Z.
  (** ccs_configuration_space_add_parameter: 429-543; [d] the distribution given, if any *)
  Definition space_add (s : space) (h : Z) (d : option Z) : Z * space :=
    let (r, c) := add_parameter heap KConfiguration (s_ctx s) h (option_map (fun d => Z.of_nat (dimension d)) d) in
    if r =? CCS_RESULT_SUCCESS then
      let i := length (s_params s) in
      let dist := match d with Some d => d | None => default_dist h end in
      (r, mkSpace (s_self s) c (s_conds s ++ [None]) (s_attach s ++ [(s_next s, O)])
            (s_dists s ++ [mkDW (s_next s) dist [i]]) (S (s_next s)) (s_sorted s ++ [i]) (s_graph_ok s) (s_forbidden s))
    else (r, s).
  (** ccs_configuration_space_add_parameters: 715-737 *)
  Fixpoint space_adds (s : space) (l : list (Z * option Z)) : Z * space :=
    match l with
    | [] => (CCS_RESULT_SUCCESS, s)
    | (h, d) :: l' => let (r, s1) := space_add s h d in
                      if r =? CCS_RESULT_SUCCESS then space_adds s1 l' else (r, s1)
    end.

  (** ccs_configuration_space_set_distribution: 547-692.  The indexes are checked in
      turn, each one against the next ones. *)
  Definition memb (i : nat) (l : list nat) : bool := existsb (Nat.eqb i) l.
  Fixpoint bad_indexes (num : nat) (l : list nat) : bool :=
    match l with
    | [] => false
    | i :: l' => (num <=? i)%nat || memb i l' || bad_indexes num l'
    end.
  (** distinct wrappers of the parameters, in order: 594-608 *)
  Fixpoint to_delete (s : space) (indexes : list nat) (acc : list nat) : list nat :=
    match indexes with
    | [] => acc
    | i :: rest => let w := fst (nth i (s_attach s) (O, O)) in
                   to_delete s rest (if memb w acc then acc else acc ++ [w])
    end.
  Definition wrapper_indexes (s : space) (id : nat) : list nat :=
    match find (fun w => (dw_id w =? id)%nat) (s_dists s) with Some w => dw_indexes w | None => [] end.
  (** 624-634: the first occurrence is removed by shifting; without one the last
      element is dropped *)
  Fixpoint drop_index (i : nat) (l : list nat) : list nat :=
    match l with
    | [] => []
    | [j] => []
    | j :: l' => if (j =? i)%nat then l' else j :: drop_index i l'
    end.
  (** 660-678 *)
  Fixpoint attach_all (attach : list (nat * nat)) (id : nat) (k : nat) (indexes : list nat) : list (nat * nat) :=
    match indexes with
    | [] => attach
    | i :: rest => attach_all (update attach i (id, k)) id (S k) rest
    end.
  Definition add_wrapper (s : space) (dist : Z) (indexes : list nat) : space :=
    mkSpace (s_self s) (s_ctx s) (s_conds s) (attach_all (s_attach s) (s_next s) 0 indexes)
      (s_dists s ++ [mkDW (s_next s) dist indexes]) (S (s_next s)) (s_sorted s) (s_graph_ok s) (s_forbidden s).
  Definition del_wrappers (s : space) (ids : list nat) : space :=
    mkSpace (s_self s) (s_ctx s) (s_conds s) (s_attach s)
      (filter (fun w => negb (memb (dw_id w) ids)) (s_dists s)) (s_next s) (s_sorted s) (s_graph_ok s) (s_forbidden s).
  (** [indexes] has the dimension of the distribution *)
  Definition set_distribution (s : space) (dist : Z) (indexes : list nat) : Z * space :=
    if bad_indexes (length (s_params s)) indexes then (ERR_INVALID_VALUE, s)
    else
      let del := to_delete s indexes [] in
      let without := fold_left (fun l i => drop_index i l) indexes (flat_map (wrapper_indexes s) del) in
      let s1 := add_wrapper (del_wrappers s del) dist indexes in
      (CCS_RESULT_SUCCESS,
       fold_left (fun s j => add_wrapper s (default_dist (nth j (s_params s) 0)) [j]) without s1).
  (** ccs_configuration_space_get_parameter_distribution: 694-713 *)
  Definition get_parameter_distribution (s : space) (i : Z) : res (Z * nat) :=
    match nth_error (s_attach s) (Z.to_nat (wrap 32 i)) with
    | None => Err ERR_OUT_OF_BOUNDS
    | Some (id, k) =>
        match find (fun w => (dw_id w =? id)%nat) (s_dists s) with
        | Some w => Ok (dw_dist w, k)
        | None => UB UBBounds
        end
    end.

  (** ** Sampling.  [draw d ps g] samples the distribution [d] for the parameters [ps]
      with the generator in state [g] (ccs_distribution_parameters_sample). *)
  Variable rng : Type.
  Variable draw : Z -> list Z -> rng -> res (list datum) * rng.
  Fixpoint scatter (values : list datum) (indexes : list nat) (drawn : list datum) : list datum :=
    match indexes, drawn with
    | i :: is, d :: ds => scatter (update values i d) is ds
    | _, _ => values
    end.
  Fixpoint draw_all (s : space) (ws : list dwrapper) (g : rng) (values : list datum) : res (list datum) * rng :=
    match ws with
    | [] => (Ok values, g)
    | w :: ws' =>
        match draw (dw_dist w) (map (fun i => nth i (s_params s) 0) (dw_indexes w)) g with
        | (Ok drawn, g1) => draw_all s ws' g1 (scatter values (dw_indexes w) drawn)
        | (Err c, g1) => (Err c, g1)
        | (UB u, g1) => (UB u, g1)
        end
    end.
  (** _sample: 997-1049; the values are those of a configuration that may have been
      used by a previous try *)
  Definition sample_once (s : space) (g : rng) (values : list datum) : res (list datum * bool) * rng :=
    let (r, g1) := draw_all s (s_dists s) g values in
    (do drawn <- r;
     do v <- set_actives s drawn;
     do found <- test_forbidden s (s_forbidden s) v;
     Ok (v, found), g1).
  (** ccs_configuration_space_sample: 1051-1079; [tries] is 100 *)
  Fixpoint sample_loop (s : space) (tries : nat) (g : rng) (values : list datum) : res (list datum) * rng :=
    match tries with
    | O => (Err ERR_SAMPLING_UNSUCCESSFUL, g)
    | S tries' =>
        match sample_once s g values with
        | (Ok (v, true), g1) => (Ok v, g1)
        | (Ok (v, false), g1) => sample_loop s tries' g1 v
        | (Err c, g1) => (Err c, g1)
        | (UB u, g1) => (UB u, g1)
        end
    end.
  Definition blank (s : space) : list datum := repeat ccs_none (length (s_params s)).
  Definition sample (s : space) (g : rng) : res (list datum) * rng * space :=
    match ensure_graph s with
    | (Ok _, s1) => (sample_loop s1 100 g (blank s1), s1)
    | (Err c, s1) => (Err c, g, s1)
    | (UB u, s1) => (UB u, g, s1)
    end.
  (** ccs_configuration_space_samples: 1081-1122.  [n] configurations are still wanted,
      [cur] is the configuration being filled.  Returns the array as well: what was
      found stays in it, also on failure; the rest is NULL. *)
  Fixpoint samples_loop (s : space) (tries : nat) (n : nat) (g : rng) (cur : option (list datum)) (found : list (list datum))
      : res unit * list (list datum) * rng :=
    match n with
    | O => (Ok tt, found, g)
    | S n' =>
        match tries with
        | O => (Err ERR_SAMPLING_UNSUCCESSFUL, found, g)
        | S tries' =>
            match sample_once s g (match cur with Some v => v | None => blank s end) with
            | (Ok (v, true), g1) => samples_loop s tries' n' g1 None (found ++ [v])
            | (Ok (v, false), g1) => samples_loop s tries' n g1 (Some v) found
            | (Err c, g1) => (Err c, found, g1)
            | (UB u, g1) => (UB u, found, g1)
            end
        end
    end.
  Definition pad (n : nat) (found : list (list datum)) : list (option (list datum)) :=
    map Some found ++ repeat None (n - length found).
  Definition samples (s : space) (n : nat) (g : rng) (arr : list (option (list datum)))
      : res unit * list (option (list datum)) * rng * space :=
    match n with
    | O => (Ok tt, arr, g, s)
    | _ =>
        match ensure_graph s with
        | (Ok _, s1) => match samples_loop s1 (100 * n) n g None [] with (r, found, g1) => (r, pad n found, g1, s1) end
        | (Err c, s1) => (Err c, arr, g, s1)
        | (UB u, s1) => (UB u, arr, g, s1)
        end
    end.
End Space.
