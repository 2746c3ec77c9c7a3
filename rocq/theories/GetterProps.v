(** C80: functions that fill arrays of the application. *)
From Coq Require Import ZArith List Bool Lia Sorted.
From Verif Require Import Base Datum CodecModel FloatModel TreeModel TreeSpec GetterModel GetterSpec GetterProofs GetterFacts GetterTrees.
Import ListNotations.
Open Scope Z_scope.

(** Asking for the number and then for that many elements gives the elements. *)
Theorem C80_two_calls : forall (A : Type) (p : Z -> prog A unit) items pad z, gives p items pad ->
  p 0 (mkMem None None (Some z)) = Next (mkMem None None (Some (lenZ items))) /\
  forall old n, lenZ old = lenZ items -> p (lenZ items) (mkMem (Some old) None n) = Next (mkMem (Some items) None (told n (lenZ items))).
Proof. exact @two_calls. Qed.
Print Assumptions C80_two_calls.

Theorem C80_spaces : forall ws clauses objectives values,
  gives (context_parameters (Object ws)) (map wr_parameter ws) (fun _ => 0) /\
  gives (space_conditions (Object ws)) (map wr_condition ws) (fun _ => 0) /\
  gives (space_forbidden_clauses (Object clauses)) clauses (fun _ => 0) /\
  gives_both (space_objectives (Object objectives)) objectives 0 0 /\
  gives (binding_values (Object values)) values (fun d => mkDatum VNone (d_flags d)).
Proof.
  exact (fun ws clauses objectives values => conj (context_parameters_ok ws) (conj (space_conditions_ok ws)
    (conj (space_forbidden_clauses_ok clauses) (conj (space_objectives_ok objectives) (binding_values_ok values))))).
Qed.
Print Assumptions C80_spaces.

Theorem C80_distributions : forall ds weights table ws areas,
  gives (mixture_distributions (Object (mkParts ds weights))) ds (fun _ => 0) /\
  gives (multivariate_distributions (Object ds)) ds (fun _ => 0) /\
  (length ws = length ds -> steps_of weights ws -> gives (mixture_weights (Object (mkParts ds weights))) ws (fun _ => 0)) /\
  (steps_of table areas -> gives (roulette_areas (Object (lenZ areas, table))) areas (fun _ => 0)).
Proof.
  exact (fun ds weights table ws areas => conj (mixture_distributions_ok (mkParts ds weights)) (conj (multivariate_distributions_ok ds)
    (conj (mixture_weights_ok ds weights ws) (roulette_areas_ok (lenZ areas) table areas eq_refl)))).
Qed.
Print Assumptions C80_distributions.

Theorem C80_expressions : forall nodes sorted items,
  gives (expression_nodes (Object nodes)) nodes (fun _ => 0) /\
  (StronglySorted Z.le sorted -> (forall x, In x sorted -> 0 < x) -> each_once sorted items ->
   gives (expression_parameters (Object sorted)) items (fun _ => 0)).
Proof. exact (fun nodes sorted items => conj (expression_nodes_ok nodes) (expression_parameters_ok sorted items)). Qed.
Print Assumptions C80_expressions.

(** The keys of a map are told as its values are: C80_keys_refuted. *)
Theorem C80_maps : forall entries,
  gives (map_values (Object entries)) (map snd entries) (fun _ => ccs_none) /\
  gives (map_keys (Object entries)) (map snd entries) (fun _ => ccs_none) /\
  gives_both (map_pairs (Object entries)) entries ccs_none ccs_none.
Proof. exact (fun entries => conj (map_values_ok entries) (conj (map_keys_ok entries) (map_pairs_ok entries))). Qed.
Print Assumptions C80_maps.
Theorem C80_keys_refuted : exists entries old new n, lenZ old = lenZ entries /\
  map_keys (Object entries) (lenZ entries) (mkMem (Some old) None n) = Next (mkMem (Some new) None n) /\ new <> map fst entries.
Proof. exists [(ccs_int 1, ccs_int 2)], [ccs_none], [ccs_int 2], None. vm_compute. repeat split. discriminate. Qed.
Print Assumptions C80_keys_refuted.

(** The functions that do not pad leave the other cells as they are. *)
Theorem C80_unpadded : forall values position,
  gives (possible_values (Object values)) values (fun d => d) /\
  gives (configuration_position (Object position)) position (fun x => x).
Proof. exact (fun values position => conj (possible_values_ok values) (configuration_position_ok position)). Qed.
Print Assumptions C80_unpadded.

Theorem C80_trees : forall h t v root l vs, reached h -> seen h t = Some v ->
  is_root h root -> designates h root l t -> values_along h root l vs ->
  gives (tree_children h (Object t)) (v_children v) (fun _ => None) /\
  gives (tree_position h (Object t)) l (fun _ => 0%nat) /\
  gives (tree_values h (Object t)) vs (fun _ => ccs_none).
Proof.
  exact (fun h t v root l vs R E Q D V => conj (tree_children_ok h t v R E) (conj (tree_position_ok h R root l t Q D) (tree_values_ok h R root l t vs Q D V))).
Qed.
Print Assumptions C80_trees.
Theorem C80_values_at : forall h t position num old n, reached h -> alive h t -> roomy num old ->
  let m := mkMem old None n in
  (num <= lenZ position /\ tree_values_at h (Object t) position num m = Stop ERR_INVALID_VALUE m) \/
  (lenZ position < num /\ old = None /\ tree_values_at h (Object t) position num m = Stop ERR_INVALID_VALUE m) \/
  (lenZ position < num /\ exists l, old = Some l /\
    ((exists vs l', values_along h t position vs /\ fetched vs (fun _ => ccs_none) num l l' /\
        tree_values_at h (Object t) position num m = Next (mkMem (Some l') None n)) \/
     (exists l1 l2 vs l' code, position = l1 ++ l2 /\ values_along h t l1 vs /\ fetched vs (fun x => x) (lenZ vs) l l' /\
        tree_values_at h (Object t) position num m = Stop code (mkMem (Some l') None n) /\
        ((code = ERR_INVALID_TREE /\ breaks h t position) \/ (code = ERR_OUT_OF_BOUNDS /\ strays h t position))))).
Proof. exact (fun h t position num old n R => tree_values_at_ok h R t position num old n). Qed.
Print Assumptions C80_values_at.

Theorem C80_tuners : forall evaluations of_features items f,
  gives (tuner_evaluations (Object evaluations)) evaluations (fun _ => 0) /\
  gives (features_evaluations (Object of_features) None) (map fst of_features) (fun _ => 0) /\
  (selected of_features items -> gives (features_evaluations (Object of_features) (Some (Object tt))) items (fun _ => 0)) /\
  (f <> Object tt -> refuses (features_evaluations (Object of_features) (Some f)) ERR_INVALID_OBJECT).
Proof.
  exact (fun evaluations of_features items f => conj (tuner_evaluations_ok evaluations) (conj (features_all_ok of_features)
    (conj (features_some_ok of_features items) (features_bad of_features f)))).
Qed.
Print Assumptions C80_tuners.

(** Objects of other types and kinds *)
Theorem C80_objects :
  refuses (context_parameters NoObject) ERR_INVALID_OBJECT /\ refuses (space_conditions NoObject) ERR_INVALID_OBJECT /\
  refuses (space_forbidden_clauses NoObject) ERR_INVALID_OBJECT /\ refuses (space_objectives NoObject) ERR_INVALID_OBJECT /\
  refuses (binding_values NoObject) ERR_INVALID_OBJECT /\
  refuses (mixture_distributions NoObject) ERR_INVALID_OBJECT /\ refuses (mixture_distributions OtherKind) ERR_INVALID_DISTRIBUTION /\
  refuses (multivariate_distributions NoObject) ERR_INVALID_OBJECT /\ refuses (multivariate_distributions OtherKind) ERR_INVALID_DISTRIBUTION /\
  refuses (mixture_weights NoObject) ERR_INVALID_OBJECT /\ refuses (mixture_weights OtherKind) ERR_INVALID_DISTRIBUTION /\
  refuses (roulette_areas NoObject) ERR_INVALID_OBJECT /\ refuses (roulette_areas OtherKind) ERR_INVALID_DISTRIBUTION /\
  refuses (expression_nodes NoObject) ERR_INVALID_OBJECT /\ refuses (expression_parameters NoObject) ERR_INVALID_OBJECT /\
  refuses (map_keys NoObject) ERR_INVALID_OBJECT /\ refuses (map_values NoObject) ERR_INVALID_OBJECT /\ refuses (map_pairs NoObject) ERR_INVALID_OBJECT /\
  refuses (possible_values NoObject) ERR_INVALID_OBJECT /\ refuses (possible_values OtherKind) ERR_INVALID_PARAMETER /\
  (forall h, refuses (tree_children h NoObject) ERR_INVALID_OBJECT /\ refuses (tree_position h NoObject) ERR_INVALID_OBJECT /\
     refuses (tree_values h NoObject) ERR_INVALID_OBJECT /\ forall position, refuses (tree_values_at h NoObject position) ERR_INVALID_OBJECT) /\
  refuses (configuration_position NoObject) ERR_INVALID_OBJECT /\ refuses (tuner_evaluations NoObject) ERR_INVALID_OBJECT /\
  (forall f, refuses (features_evaluations NoObject f) ERR_INVALID_OBJECT) /\ refuses (objective_values NoObject) ERR_INVALID_OBJECT.
Proof. exact objects_refused. Qed.
Print Assumptions C80_objects.

(** The values of objectives: too large arrays are refused, and all the values are written
    whatever the number of cells is said to be. *)
Theorem C80_objective_values : forall objectives num l n, 0 <= num <= lenZ l ->
  let m := mkMem (Some l) None n in let p := objective_values (Object objectives) num in
  (lenZ objectives < num -> p m = Stop ERR_INVALID_VALUE m) /\
  (forall ds, objectives = map Ok ds -> num <= lenZ ds -> lenZ ds <= lenZ l -> exists l', fetched ds (fun x => x) (lenZ ds) l l' /\ p m = Next (mkMem (Some l') None (told n (lenZ ds)))) /\
  (forall ds, objectives = map Ok ds -> lenZ l < lenZ ds -> p m = Undef UBBounds) /\
  (forall ds c rest, objectives = map Ok ds ++ Err c :: rest -> num <= lenZ objectives -> lenZ ds <= lenZ l ->
     exists l', fetched ds (fun x => x) (lenZ ds) l l' /\ p m = Stop c (mkMem (Some l') None n)).
Proof. exact objective_values_ok. Qed.
Print Assumptions C80_objective_values.
Theorem C80_objective_counts : forall objectives num n, 0 <= num ->
  let m := mkMem None None n in let p := objective_values (Object objectives) num in
  (num = 0 /\ n <> None /\ p m = Next (mkMem None None (told n (lenZ objectives)))) \/
  ((0 < num \/ n = None) /\ p m = Stop ERR_INVALID_VALUE m).
Proof. exact objective_counts. Qed.
Print Assumptions C80_objective_counts.
Theorem C80_overrun_refuted : exists objectives num l n, num = lenZ l /\ num < lenZ objectives /\
  objective_values (Object objectives) num (mkMem (Some l) None n) = Undef UBBounds.
Proof. exists [Ok (ccs_int 1); Ok (ccs_int 2)], 1, [ccs_none], (Some 0). vm_compute. repeat split. Qed.
Print Assumptions C80_overrun_refuted.

(** An array of 4 cells, said to be of 3, for two conditions; a missing array; a too small one *)
Example C80_ex :
  space_conditions (Object [mkWrapper 100 0; mkWrapper 101 200]) 3 (mkMem (Some [7; 7; 7; 7]) None (Some 9)) = Next (mkMem (Some [0; 200; 0; 7]) None (Some 2)) /\
  space_conditions (Object [mkWrapper 100 0; mkWrapper 101 200]) 0 (mkMem None None (Some 9)) = Next (mkMem None None (Some 2)) /\
  space_conditions (Object [mkWrapper 100 0; mkWrapper 101 200]) 1 (mkMem (Some [7]) None (Some 9)) = Stop ERR_INVALID_VALUE (mkMem (Some [7]) None (Some 9)) /\
  expression_parameters (Object [3; 3; 5; 5; 5; 9]) 4 (mkMem (Some [7; 7; 7; 7]) None None) = Next (mkMem (Some [3; 5; 9; 0]) None None) /\
  map_pairs (Object [(ccs_int 1, ccs_int 2)]) 2 (mkMem (Some [ccs_true; ccs_true]) (Some [ccs_true; ccs_true]) (Some 0))
  = Next (mkMem (Some [ccs_int 1; ccs_none]) (Some [ccs_int 2; ccs_none]) (Some 1)) /\
  possible_values (Object [ccs_int 1]) 2 (mkMem (Some [ccs_true; ccs_true]) None None) = Next (mkMem (Some [ccs_int 1; ccs_true]) None None) /\
  features_evaluations (Object [(10, 0); (11, -1); (12, 0)]) (Some (Object tt)) 3 (mkMem (Some [7; 7; 7]) None (Some 0)) = Next (mkMem (Some [10; 12; 0]) None (Some 2)).
Proof. vm_compute. repeat split. Qed.
