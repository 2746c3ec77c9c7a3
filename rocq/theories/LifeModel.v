(** Object lifetimes: reference counts, destruction, and the functions that take
    or give references (constructors, mutators and their error paths).

    What an object contains is reduced to the references it owns.  Decisions that
    do not concern lifetimes (is this value in the domain, is this name taken,
    does this condition make a cycle) are arguments of the operations: they are
    modelled in the other files.  Every allocation made by a modelled function
    succeeds or fails as the state's [s_mem] says; the growth of arrays and hash
    tables is assumed to succeed (where it fails the C code either unwinds or
    calls exit).  Addresses are never reused: a handle of a freed object stays
    dangling, and using it is [UBBounds].  Objects are used by one thread. *)
From Coq Require Import ZArith List Bool.
From Verif Require Import Base.
Import ListNotations.
Open Scope Z_scope.

Definition handle := nat.

(** include/cconfigspace/base.h 253-298, enum ccs_object_type_e. *)
Definition T_RNG := 0.
Definition T_DISTRIBUTION := 1.
Definition T_PARAMETER := 2.
Definition T_EXPRESSION := 3.
Definition T_CONFIGURATION_SPACE := 4.
Definition T_CONFIGURATION := 5.
Definition T_OBJECTIVE_SPACE := 6.
Definition T_EVALUATION := 7.
Definition T_TUNER := 8.
Definition T_FEATURES_SPACE := 9.
Definition T_FEATURES := 10.
Definition T_FEATURES_EVALUATION := 11.
Definition T_FEATURES_TUNER := 12.
Definition T_MAP := 13.
Definition T_ERROR_STACK := 14.
Definition T_TREE := 15.
Definition T_TREE_SPACE := 16.
Definition T_TREE_CONFIGURATION := 17.
Definition T_TREE_EVALUATION := 18.
Definition T_TREE_TUNER := 19.

(** One entry of a map: the key (an abstract identity), and the objects owned
    through the key and through the value (src/map.c 7-17). *)
Record entry := mkEntry { e_key : Z; e_kobj : option handle; e_vobj : option handle }.

(** The references in the private data of each type of object. *)
Inductive payload : Type :=
| PPlain                                      (* nothing owned *)
| PDistributions (ds : list handle)           (* distribution_mixture.c, _multivariate.c *)
| PVariable (p : handle)                      (* expression_internal.h, variable *)
| PNodes (nodes : list handle)                (* expression_internal.h *)
| PSpace (params : list (handle * option handle)) (clauses : list handle)
         (dists : list (handle * list nat)) (rng : handle)
                                              (* configuration_space_internal.h *)
| PContext (params objectives : list handle)  (* objective and features spaces *)
| PConfiguration (space : handle)             (* configuration, features, tree configuration *)
| PEvaluation (os c : handle)                 (* evaluation, tree evaluation *)
| PFeaturesEvaluation (os c f : handle)
| PTuner (cs os : handle) (history : list handle)          (* tuner, tree tuner: random *)
| PUserTuner (code : Z) (cs os : handle)                   (* user defined; result of vector->del *)
| PFeaturesTuner (cs os fs : handle) (history : list handle)
| PUserFeaturesTuner (code : Z) (cs os fs : handle)
| PMap (entries : list entry)
| PTree (children : list (option handle))     (* the parent pointer owns nothing *)
| PTreeSpace (rng tree : handle)              (* static *)
| PUserTreeSpace (code : Z) (rng tree : handle).  (* dynamic; result of vector->del *)

(** src/cconfigspace_internal.h 230-245, the header of every object. *)
Record obj := mkObj {
  o_type : Z;
  o_ref : Z;                     (* int32_t refcount *)
  o_cbs : list (Z * Z);          (* UT_array of (callback, user data) *)
  o_data : payload }.

Definition with_ref (o : obj) (r : Z) : obj := mkObj (o_type o) r (o_cbs o) (o_data o).
Definition with_data (o : obj) (p : payload) : obj := mkObj (o_type o) (o_ref o) (o_cbs o) p.
Definition with_cbs (o : obj) (l : list (Z * Z)) : obj := mkObj (o_type o) (o_ref o) l (o_data o).

(** What an application can observe of a destruction. *)
Inductive event : Type :=
| ECallback (h : handle) (cb ud : Z)   (* a destruction callback runs *)
| EUserDel (h : handle)                (* the del function of a user defined object runs *)
| EFree (h : handle).                  (* the memory is given back *)

Record st := mkSt {
  s_objs : list (option obj);    (* [None]: freed *)
  s_log : list event;
  s_mem : list bool }.           (* outcome of the next allocations; then all succeed *)

Inductive out (A : Type) : Type :=
| Done (a : A) (s : st)
| Fail (code : Z) (s : st)
| Undef (why : ub).
Arguments Done {A} a s.
Arguments Fail {A} code s.
Arguments Undef {A} why.

Definition prog (A : Type) := st -> out A.

Definition ret {A} (a : A) : prog A := fun s => Done a s.
Definition raise {A} (c : Z) : prog A := fun s => Fail c s.

(** CCS_VALIDATE: src/cconfigspace_internal.h 62-147. *)
Definition bindp {A B} (p : prog A) (f : A -> prog B) : prog B :=
  fun s => match p s with
           | Done a s1 => f a s1
           | Fail c s1 => Fail c s1
           | Undef w => Undef w
           end.

(** CCS_VALIDATE_ERR_GOTO(err, p, label) where the code at the label is [clean]. *)
Definition orelse {A} (p : prog A) (clean : prog unit) : prog A :=
  fun s => match p s with
           | Fail c s1 => match clean s1 with
                          | Done _ s2 => Fail c s2
                          | Fail _ s2 => Fail c s2
                          | Undef w => Undef w
                          end
           | r => r
           end.

(** A call whose result is not looked at. *)
Definition ignore {A} (p : prog A) : prog unit :=
  fun s => match p s with
           | Done _ s1 => Done tt s1
           | Fail _ s1 => Done tt s1
           | Undef w => Undef w
           end.

Declare Scope prog_scope.
Delimit Scope prog_scope with prog.
Notation "x <~ p ;; q" := (bindp p (fun x => q))
  (at level 61, p at next level, right associativity) : prog_scope.
Notation "p ;;; q" := (bindp p (fun _ => q))
  (at level 61, right associativity) : prog_scope.
Open Scope prog_scope.

Definition refutep (b : bool) (c : Z) : prog unit := if b then raise c else ret tt.
(** A decision taken outside of the model: a negative code is a refusal. *)
Definition verdict (v : option Z) : prog unit :=
  match v with Some c => refutep (c <? 0) c | None => ret tt end.

Fixpoint set_nth {A} (l : list A) (i : nat) (x : A) : list A :=
  match l, i with
  | [], _ => []
  | _ :: l', O => x :: l'
  | y :: l', S i' => y :: set_nth l' i' x
  end.

Definition put (s : st) (h : handle) (x : option obj) : st :=
  mkSt (set_nth (s_objs s) h x) (s_log s) (s_mem s).
Definition logs (s : st) (l : list event) : st :=
  mkSt (s_objs s) (s_log s ++ l) (s_mem s).

(** Reading through a handle. *)
Definition deref (h : handle) : prog obj :=
  fun s => match nth_error (s_objs s) h with
           | Some (Some o) => Done o s
           | _ => Undef UBBounds
           end.
Definition store (h : handle) (x : option obj) : prog unit := fun s => Done tt (put s h x).
Definition say (l : list event) : prog unit := fun s => Done tt (logs s l).
Definition set_data (h : handle) (p : payload) : prog unit :=
  o <~ deref h ;; store h (Some (with_data o p)).
Definition get_data (h : handle) : prog payload := o <~ deref h ;; ret (o_data o).

(** CCS_CHECK_OBJ: src/cconfigspace_internal.h 88-95 ([data] is never NULL). *)
Definition check_obj (x : option handle) (t : Z) : prog handle :=
  match x with
  | None => raise ERR_INVALID_OBJECT
  | Some h => o <~ deref h ;;
              refutep (negb (o_type o =? t)) ERR_INVALID_OBJECT ;;;
              ret h
  end.

(** calloc or malloc followed by CCS_REFUTE(!mem, OUT_OF_MEMORY). *)
Definition alloc : prog unit :=
  fun s => match s_mem s with
           | [] => Done tt s
           | true :: m => Done tt (mkSt (s_objs s) (s_log s) m)
           | false :: m => Fail ERR_OUT_OF_MEMORY (mkSt (s_objs s) (s_log s) m)
           end.

(** _ccs_object_init: src/cconfigspace_internal.h 255-268, once everything the
    constructor needs has been obtained. *)
Definition new (t : Z) (p : payload) : prog handle :=
  fun s => Done (length (s_objs s))
                (mkSt (s_objs s ++ [Some (mkObj t 1 [] p)]) (s_log s) (s_mem s)).

Definition INT32_MAX := 2 ^ 31 - 1.

(** ccs_retain_object: src/cconfigspace.c 44-51. *)
Definition retain (x : option handle) : prog unit :=
  match x with
  | None => raise ERR_INVALID_OBJECT
  | Some h =>
      o <~ deref h ;;
      refutep (o_ref o <=? 0) ERR_INVALID_OBJECT ;;;
      if o_ref o =? INT32_MAX then (fun _ => Undef UBOverflow)
      else store h (Some (with_ref o (o_ref o + 1)))
  end.

Definition olist (x : option handle) : list handle :=
  match x with Some h => [h] | None => [] end.

(** The references a del function releases, in order: distribution_mixture.c
    23-25, distribution_multivariate.c 24-26, expression.c 97-98 and 1189,
    configuration_space.c 18-51, objective_space.c 12-22, features_space.c 12-15,
    configuration.c 15, features.c 16, tree_configuration.c 10, evaluation.c
    16-17, tree_evaluation.c 16-17, features_evaluation.c 18-20, tuner_random.c
    20-24, tree_tuner_random.c 20-24, tuner_user_defined.c 20-21,
    tree_tuner_user_defined.c 22-23, features_tuner_random.c 22-28,
    features_tuner_user_defined.c 23-25, map.c 26-44, tree.c 8-14,
    tree_space_static.c 16-17, tree_space_dynamic.c 20-21.  Resetting the parent
    of the children of a tree (tree.c 10-12) is left out. *)
Definition released (p : payload) : list handle :=
  match p with
  | PPlain => []
  | PDistributions ds => ds
  | PVariable v => [v]
  | PNodes l => l
  | PSpace params clauses dists rng =>
      flat_map (fun w => fst w :: olist (snd w)) params ++ clauses ++ map fst dists ++ [rng]
  | PContext params objectives => params ++ objectives
  | PConfiguration sp => [sp]
  | PEvaluation os c => [os; c]
  | PFeaturesEvaluation os c f => [os; c; f]
  | PTuner cs os hist => cs :: os :: hist
  | PUserTuner _ cs os => [cs; os]
  | PFeaturesTuner cs os fs hist => cs :: os :: fs :: hist
  | PUserFeaturesTuner _ cs os fs => [cs; os; fs]
  | PMap l => flat_map (fun e => olist (e_kobj e) ++ olist (e_vobj e)) l
  | PTree children => flat_map olist children
  | PTreeSpace rng tree => [rng; tree]
  | PUserTreeSpace _ rng tree => [rng; tree]
  end.

(** The del function given by the user, called first (tuner_user_defined.c 19,
    features_tuner_user_defined.c 22, tree_tuner_user_defined.c 21,
    tree_space_dynamic.c 19); its result becomes the result of del. *)
Definition user_del (p : payload) : option Z :=
  match p with
  | PUserTuner c _ _ => Some c
  | PUserFeaturesTuner c _ _ _ => Some c
  | PUserTreeSpace c _ _ => Some c
  | _ => None
  end.

(** ccs_release_object: src/cconfigspace.c 53-72.  [n] bounds the depth of the
    recursion through the del functions. *)
Fixpoint release_n (n : nat) (x : option handle) {struct n} : prog unit :=
  match n with
  | O => fun _ => Undef UBFuel
  | S k =>
      match x with
      | None => raise ERR_INVALID_OBJECT
      | Some h =>
          o <~ deref h ;;
          refutep (o_ref o <=? 0) ERR_INVALID_OBJECT ;;;
          store h (Some (with_ref o (o_ref o - 1))) ;;;
          if o_ref o - 1 =? 0 then
            say (map (fun c => ECallback h (fst c) (snd c)) (rev (o_cbs o))) ;;;
            (match o_data o with
             | PVariable v => release_n k (Some v)           (* CCS_VALIDATE, expression.c 1189 *)
             | d =>
                 say (match user_del d with Some _ => [EUserDel h] | None => [] end) ;;;
                 (fix go (l : list handle) : prog unit :=
                    match l with
                    | [] => ret tt
                    | y :: l' => ignore (release_n k (Some y)) ;;; go l'
                    end) (released d) ;;;
                 (match user_del d with
                  | Some c => refutep (c <? 0) c
                  | None => ret tt
                  end)
             end) ;;;
            store h None ;;;
            say [EFree h]
          else ret tt
      end
  end.

Definition release (x : option handle) : prog unit :=
  fun s => release_n (S (length (s_objs s))) x s.

(** ccs_object_set_destroy_callback: src/cconfigspace.c 97-111; callback 0 is NULL. *)
Definition set_destroy_callback (x : option handle) (cb ud : Z) : prog unit :=
  match x with
  | None => raise ERR_INVALID_OBJECT
  | Some h =>
      refutep (cb =? 0) ERR_INVALID_VALUE ;;;
      o <~ deref h ;;
      store h (Some (with_cbs o (o_cbs o ++ [(cb, ud)])))
  end.

(** ccs_object_get_refcount: src/cconfigspace.c 84-92. *)
Definition get_refcount (x : option handle) : prog Z :=
  match x with
  | None => raise ERR_INVALID_OBJECT
  | Some h => o <~ deref h ;; ret (o_ref o)
  end.

(** Releases of an error path: the results are not looked at. *)
Definition drop (h : handle) : prog unit := ignore (release (Some h)).
Fixpoint drops (l : list handle) : prog unit :=
  match l with [] => ret tt | h :: l' => drop h ;;; drops l' end.

(** Constructors that own nothing: ccs_create_rng, the uniform, normal and
    roulette distributions, the parameters, ccs_create_literal,
    ccs_create_error_stack. *)
Definition create_plain (t : Z) : prog handle := alloc ;;; new t PPlain.

(** ccs_create_map: src/map.c 148-160. *)
Definition create_map : prog handle := alloc ;;; new T_MAP (PMap []).

(** ccs_create_objective_space: src/objective_space.c 215-250;
    ccs_create_features_space: src/features_space.c. *)
Definition create_context (t : Z) : prog handle := alloc ;;; new t (PContext [] []).

(** ccs_create_configuration_space: src/configuration_space.c 331-377. *)
Definition create_configuration_space : prog handle :=
  alloc ;;;
  r <~ create_plain T_RNG ;;
  new T_CONFIGURATION_SPACE (PSpace [] [] [] r).

(** CCS_CHECK_OBJ on every element of an array of distributions
    (ccs_distribution_get_dimension): distribution_multivariate.c 195-200,
    distribution_mixture.c 199-208. *)
Fixpoint check_objs (l : list (option handle)) (t : Z) : prog (list handle) :=
  match l with
  | [] => ret []
  | x :: l' => h <~ check_obj x t ;; r <~ check_objs l' t ;; ret (h :: r)
  end.

(** distribution_multivariate.c 257-270, distribution_mixture.c 317-331: the
    distributions already retained are released when one cannot be. *)
Fixpoint retain_each (got : list handle) (l : list handle) : prog unit :=
  match l with
  | [] => ret tt
  | h :: l' => orelse (retain (Some h)) (drops got) ;;; retain_each (got ++ [h]) l'
  end.

(** ccs_create_multivariate_distribution: distribution_multivariate.c 177-274. *)
Definition create_multivariate (l : list (option handle)) : prog handle :=
  refutep (Nat.eqb (length l) 0) ERR_INVALID_VALUE ;;;
  ds <~ check_objs l T_DISTRIBUTION ;;
  alloc ;;;
  retain_each [] ds ;;;
  new T_DISTRIBUTION (PDistributions ds).

(** ccs_create_mixture_distribution: distribution_mixture.c 182-337.  [v1] is the
    verdict on dimensions and weights before any allocation, [v2] the one on data
    types, bounds and the cumulated weights afterwards (no object is held yet). *)
Definition create_mixture (l : list (option handle)) (v1 v2 : option Z) : prog handle :=
  refutep (Nat.eqb (length l) 0) ERR_INVALID_VALUE ;;;
  ds <~ check_objs l T_DISTRIBUTION ;;
  verdict v1 ;;;
  alloc ;;;
  alloc ;;;
  verdict v2 ;;;
  retain_each [] ds ;;;
  new T_DISTRIBUTION (PDistributions ds).

(** ccs_create_variable: src/expression.c 1428-1458. *)
Definition create_variable (x : option handle) : prog handle :=
  p <~ check_obj x T_PARAMETER ;;
  alloc ;;;
  retain (Some p) ;;;
  new T_EXPRESSION (PVariable p).

(** A node given to ccs_create_expression: an object, a value, or a datum whose
    type cannot be a node. *)
Inductive node := NObject (x : option handle) | NValue | NInvalid.

(** src/expression.c 1478-1494. *)
Fixpoint check_nodes (l : list node) : prog unit :=
  match l with
  | [] => ret tt
  | n :: l' =>
      match n with
      | NObject None => raise ERR_INVALID_OBJECT
      | NObject (Some h) =>
          o <~ deref h ;;
          refutep (negb (o_type o =? T_PARAMETER) && negb (o_type o =? T_EXPRESSION))
                  ERR_INVALID_VALUE
      | NValue => ret tt
      | NInvalid => raise ERR_INVALID_VALUE
      end ;;; check_nodes l'
  end.

(** src/expression.c 1512-1541, one node. *)
Definition make_node (n : node) : prog handle :=
  match n with
  | NObject (Some h) =>
      o <~ deref h ;;
      if o_type o =? T_EXPRESSION then retain (Some h) ;;; ret h
      else create_variable (Some h)
  | NObject None => raise ERR_INVALID_OBJECT
  | _ => create_plain T_EXPRESSION
  end.

(** src/expression.c 1512-1552: the nodes obtained so far are released on error. *)
Fixpoint make_nodes (got : list handle) (l : list node) : prog (list handle) :=
  match l with
  | [] => ret got
  | n :: l' => h <~ orelse (make_node n) (drops got) ;; make_nodes (got ++ [h]) l'
  end.

(** ccs_create_expression: src/expression.c 1460-1553; [v] is the verdict on the
    type of expression and its arity. *)
Definition create_expression (l : list node) (v : option Z) : prog handle :=
  verdict v ;;;
  check_nodes l ;;;
  alloc ;;;
  nodes <~ make_nodes [] l ;;
  new T_EXPRESSION (PNodes nodes).

(** The values given to a constructor: NULL with a count, or an array; for each
    value of the array the verdict of validation ([None]: accepted, or not
    transient and therefore not validated). *)
Inductive values := VNull (num : Z) | VArray (l : list (option Z)).

(** CCS_CHECK_ARY and the comparison of the counts. *)
Definition check_values (v : values) (num_parameters : nat) : prog unit :=
  match v with
  | VNull n => refutep (0 <? n) ERR_INVALID_VALUE
  | VArray l => refutep (negb (Nat.eqb num_parameters (length l))) ERR_INVALID_VALUE
  end.

Fixpoint validate_values (l : list (option Z)) : prog unit :=
  match l with [] => ret tt | v :: l' => verdict v ;;; validate_values l' end.
Definition validate (v : values) : prog unit :=
  match v with VNull _ => ret tt | VArray l => validate_values l end.

Definition num_parameters (h : handle) : prog nat :=
  d <~ get_data h ;;
  ret (match d with
       | PSpace params _ _ _ => length params
       | PContext params _ => length params
       | _ => O
       end).

(** ccs_create_configuration: src/configuration.c 86-138; when a value is
    refused the space is not released. *)
Definition create_configuration (x : option handle) (v : values) : prog handle :=
  cs <~ check_obj x T_CONFIGURATION_SPACE ;;
  n <~ num_parameters cs ;;
  check_values v n ;;;
  alloc ;;;
  retain (Some cs) ;;;
  validate v ;;;
  new T_CONFIGURATION (PConfiguration cs).

(** ccs_create_features: src/features.c 87-140. *)
Definition create_features (x : option handle) (v : values) : prog handle :=
  fs <~ check_obj x T_FEATURES_SPACE ;;
  n <~ num_parameters fs ;;
  check_values v n ;;;
  alloc ;;;
  retain (Some fs) ;;;
  orelse (validate v) (drop fs) ;;;
  new T_FEATURES (PConfiguration fs).

(** ccs_create_evaluation: src/evaluation.c 166-225. *)
Definition create_evaluation (xo xc : option handle) (v : values) : prog handle :=
  os <~ check_obj xo T_OBJECTIVE_SPACE ;;
  c <~ check_obj xc T_CONFIGURATION ;;
  n <~ num_parameters os ;;
  check_values v n ;;;
  alloc ;;;
  retain (Some os) ;;;
  orelse (retain (Some c)) (drop os) ;;;
  orelse (validate v) (drop c ;;; drop os) ;;;
  new T_EVALUATION (PEvaluation os c).

(** ccs_create_tree_evaluation: src/tree_evaluation.c 169-228. *)
Definition create_tree_evaluation (xo xc : option handle) (v : values) : prog handle :=
  os <~ check_obj xo T_OBJECTIVE_SPACE ;;
  c <~ check_obj xc T_TREE_CONFIGURATION ;;
  n <~ num_parameters os ;;
  check_values v n ;;;
  alloc ;;;
  retain (Some os) ;;;
  orelse (retain (Some c)) (drop os) ;;;
  orelse (validate v) (drop c ;;; drop os) ;;;
  new T_TREE_EVALUATION (PEvaluation os c).

(** ccs_create_features_evaluation: src/features_evaluation.c 186-257. *)
Definition create_features_evaluation (xo xc xf : option handle) (v : values) : prog handle :=
  os <~ check_obj xo T_OBJECTIVE_SPACE ;;
  c <~ check_obj xc T_CONFIGURATION ;;
  f <~ check_obj xf T_FEATURES ;;
  n <~ num_parameters os ;;
  check_values v n ;;;
  alloc ;;;
  retain (Some os) ;;;
  orelse (retain (Some c)) (drop os) ;;;
  orelse (retain (Some f)) (drop c ;;; drop os) ;;;
  orelse (validate v) (drop f ;;; drop c ;;; drop os) ;;;
  new T_FEATURES_EVALUATION (PFeaturesEvaluation os c f).

(** ccs_create_tree_configuration: src/tree_configuration.c 116-152; [null] is a
    NULL position of non-zero size. *)
Definition create_tree_configuration (x : option handle) (null : bool) : prog handle :=
  ts <~ check_obj x T_TREE_SPACE ;;
  refutep null ERR_INVALID_VALUE ;;;
  alloc ;;;
  retain (Some ts) ;;;
  new T_TREE_CONFIGURATION (PConfiguration ts).

(** ccs_create_random_tuner: src/tuner_random.c 345-410 (the three allocations
    after the retains are the arrays). *)
Definition create_random_tuner (xc xo : option handle) : prog handle :=
  cs <~ check_obj xc T_CONFIGURATION_SPACE ;;
  os <~ check_obj xo T_OBJECTIVE_SPACE ;;
  alloc ;;;
  retain (Some cs) ;;;
  orelse (retain (Some os)) (drop cs) ;;;
  orelse (alloc ;;; alloc ;;; alloc) (drop os ;;; drop cs) ;;;
  new T_TUNER (PTuner cs os []).

(** ccs_create_random_tree_tuner: src/tree_tuner_random.c 352-408. *)
Definition create_random_tree_tuner (xt xo : option handle) : prog handle :=
  ts <~ check_obj xt T_TREE_SPACE ;;
  os <~ check_obj xo T_OBJECTIVE_SPACE ;;
  alloc ;;;
  retain (Some ts) ;;;
  orelse (retain (Some os)) (drop ts) ;;;
  orelse (alloc ;;; alloc ;;; alloc) (drop os ;;; drop ts) ;;;
  new T_TREE_TUNER (PTuner ts os []).

(** ccs_create_random_features_tuner: src/features_tuner_random.c 452-516. *)
Definition create_random_features_tuner (xc xf xo : option handle) : prog handle :=
  cs <~ check_obj xc T_CONFIGURATION_SPACE ;;
  fs <~ check_obj xf T_FEATURES_SPACE ;;
  os <~ check_obj xo T_OBJECTIVE_SPACE ;;
  alloc ;;;
  retain (Some cs) ;;;
  orelse (retain (Some os)) (drop cs) ;;;
  orelse (retain (Some fs)) (drop os ;;; drop cs) ;;;
  orelse (alloc ;;; alloc ;;; alloc) (drop fs ;;; drop os ;;; drop cs) ;;;
  new T_FEATURES_TUNER (PFeaturesTuner cs os fs []).

(** ccs_create_user_defined_tuner: src/tuner_user_defined.c 299-353; [null]: the
    vector or one of its mandatory functions is NULL; [code]: what its del
    function will return. *)
Definition create_user_tuner (xc xo : option handle) (null : bool) (code : Z) : prog handle :=
  cs <~ check_obj xc T_CONFIGURATION_SPACE ;;
  os <~ check_obj xo T_OBJECTIVE_SPACE ;;
  refutep null ERR_INVALID_VALUE ;;;
  alloc ;;;
  retain (Some cs) ;;;
  orelse (retain (Some os)) (drop cs) ;;;
  new T_TUNER (PUserTuner code cs os).

(** ccs_create_user_defined_tree_tuner: src/tree_tuner_user_defined.c 304-358. *)
Definition create_user_tree_tuner (xt xo : option handle) (null : bool) (code : Z) : prog handle :=
  ts <~ check_obj xt T_TREE_SPACE ;;
  os <~ check_obj xo T_OBJECTIVE_SPACE ;;
  refutep null ERR_INVALID_VALUE ;;;
  alloc ;;;
  retain (Some ts) ;;;
  orelse (retain (Some os)) (drop ts) ;;;
  new T_TREE_TUNER (PUserTuner code ts os).

(** ccs_create_user_defined_features_tuner: src/features_tuner_user_defined.c
    323-386. *)
Definition create_user_features_tuner (xc xf xo : option handle) (null : bool) (code : Z)
  : prog handle :=
  cs <~ check_obj xc T_CONFIGURATION_SPACE ;;
  fs <~ check_obj xf T_FEATURES_SPACE ;;
  os <~ check_obj xo T_OBJECTIVE_SPACE ;;
  refutep null ERR_INVALID_VALUE ;;;
  alloc ;;;
  retain (Some cs) ;;;
  orelse (retain (Some os)) (drop cs) ;;;
  orelse (retain (Some fs)) (drop os ;;; drop cs) ;;;
  new T_FEATURES_TUNER (PUserFeaturesTuner code cs os fs).

(** ccs_create_tree: src/tree.c 141-197; [v] is the verdict on value and arity. *)
Definition create_tree (arity : nat) (v : option Z) : prog handle :=
  verdict v ;;;
  alloc ;;;
  new T_TREE (PTree (repeat None arity)).

(** ccs_create_static_tree_space: src/tree_space_static.c 171-212. *)
Definition create_static_tree_space (x : option handle) : prog handle :=
  tree <~ check_obj x T_TREE ;;
  alloc ;;;
  rng <~ create_plain T_RNG ;;
  orelse (retain (Some tree)) (drop rng) ;;;
  new T_TREE_SPACE (PTreeSpace rng tree).

(** ccs_create_dynamic_tree_space: src/tree_space_dynamic.c 250-300. *)
Definition create_dynamic_tree_space (x : option handle) (null : bool) (code : Z) : prog handle :=
  tree <~ check_obj x T_TREE ;;
  refutep null ERR_INVALID_VALUE ;;;
  alloc ;;;
  rng <~ create_plain T_RNG ;;
  orelse (retain (Some tree)) (drop rng) ;;;
  new T_TREE_SPACE (PUserTreeSpace code rng tree).

(** ccs_configuration_space_set_rng: src/configuration_space.c 389-402. *)
Definition space_set_rng (x r : option handle) : prog unit :=
  cs <~ check_obj x T_CONFIGURATION_SPACE ;;
  rng <~ check_obj r T_RNG ;;
  retain (Some rng) ;;;
  d <~ get_data cs ;;
  match d with
  | PSpace params clauses dists tmp =>
      set_data cs (PSpace params clauses dists rng) ;;;
      release (Some tmp)
  | _ => fun _ => Undef UBBounds
  end.

(** ccs_tree_space_set_rng: src/tree_space.c 32-44. *)
Definition tree_space_set_rng (x r : option handle) : prog unit :=
  ts <~ check_obj x T_TREE_SPACE ;;
  rng <~ check_obj r T_RNG ;;
  retain (Some rng) ;;;
  d <~ get_data ts ;;
  match d with
  | PTreeSpace tmp tree => set_data ts (PTreeSpace rng tree) ;;; release (Some tmp)
  | PUserTreeSpace c tmp tree => set_data ts (PUserTreeSpace c rng tree) ;;; release (Some tmp)
  | _ => fun _ => Undef UBBounds
  end.

(** ccs_configuration_space_add_parameter: src/configuration_space.c 432-543.
    [v]: the verdict on the type and the name of the parameter; [dim1]: the given
    distribution has dimension 1. *)
Definition space_add_parameter (x p d : option handle) (v : option Z) (dim1 : bool) : prog unit :=
  cs <~ check_obj x T_CONFIGURATION_SPACE ;;
  par <~ check_obj p T_PARAMETER ;;
  verdict v ;;;
  retain (Some par) ;;;
  dist <~ (match d with
           | Some _ =>
               dh <~ orelse (check_obj d T_DISTRIBUTION) (drop par) ;;
               orelse (refutep (negb dim1) ERR_INVALID_DISTRIBUTION) (drop par) ;;;
               orelse (retain (Some dh)) (drop par) ;;;
               ret dh
           | None => orelse (create_plain T_DISTRIBUTION) (drop par)
           end) ;;
  orelse alloc (drop dist ;;; drop par) ;;;
  orelse alloc (drop dist ;;; drop par) ;;;
  dt <~ get_data cs ;;
  match dt with
  | PSpace params clauses dists rng =>
      set_data cs (PSpace (params ++ [(par, None)]) clauses
                          (dists ++ [(dist, [length params])]) rng)
  | _ => fun _ => Undef UBBounds
  end.

(** ccs_objective_space_add_parameter: src/objective_space.c 277-330;
    ccs_features_space_add_parameter: src/features_space.c 151-202. *)
Definition context_add_parameter (t : Z) (x p : option handle) (v : option Z) : prog unit :=
  ctx <~ check_obj x t ;;
  par <~ check_obj p T_PARAMETER ;;
  verdict v ;;;
  retain (Some par) ;;;
  orelse alloc (drop par) ;;;
  dt <~ get_data ctx ;;
  match dt with
  | PContext params objectives => set_data ctx (PContext (params ++ [par]) objectives)
  | _ => fun _ => Undef UBBounds
  end.

(** ccs_objective_space_add_objective: src/objective_space.c 495-511; [v]: the
    verdict of ccs_expression_check_context. *)
Definition add_objective (x e : option handle) (v : option Z) : prog unit :=
  os <~ check_obj x T_OBJECTIVE_SPACE ;;
  ex <~ check_obj e T_EXPRESSION ;;
  verdict v ;;;
  retain (Some ex) ;;;
  dt <~ get_data os ;;
  match dt with
  | PContext params objectives => set_data os (PContext params (objectives ++ [ex]))
  | _ => fun _ => Undef UBBounds
  end.

(** ccs_configuration_space_set_condition: src/configuration_space.c 1304-1335;
    [v]: the verdict of _generate_constraints. *)
Definition set_condition (x : option handle) (i : nat) (e : option handle) (v : option Z)
  : prog unit :=
  cs <~ check_obj x T_CONFIGURATION_SPACE ;;
  ex <~ check_obj e T_EXPRESSION ;;
  dt <~ get_data cs ;;
  match dt with
  | PSpace params clauses dists rng =>
      match nth_error params i with
      | None => raise ERR_OUT_OF_BOUNDS
      | Some (par, Some _) => raise ERR_INVALID_PARAMETER
      | Some (par, None) =>
          retain (Some ex) ;;;
          set_data cs (PSpace (set_nth params i (par, Some ex)) clauses dists rng) ;;;
          orelse (verdict v)
                 (drop ex ;;; set_data cs (PSpace params clauses dists rng))
      end
  | _ => fun _ => Undef UBBounds
  end.

(** ccs_configuration_space_get_default_configuration:
    src/configuration_space.c 860-888; [v]: the verdict of the default values and
    the conditions. *)
Definition get_default_configuration (x : option handle) (v : option Z) : prog handle :=
  cs <~ check_obj x T_CONFIGURATION_SPACE ;;
  config <~ create_configuration (Some cs) (VNull 0) ;;
  orelse (verdict v) (drop config) ;;;
  ret config.

(** ccs_configuration_space_add_forbidden_clause: src/configuration_space.c
    1393-1425; [v1]: ccs_expression_check_context, [vd]: the default
    configuration, [v2]: evaluating the clause on it. *)
Definition add_forbidden_clause (x e : option handle) (v1 vd v2 : option Z) : prog unit :=
  cs <~ check_obj x T_CONFIGURATION_SPACE ;;
  ex <~ check_obj e T_EXPRESSION ;;
  verdict v1 ;;;
  config <~ get_default_configuration (Some cs) vd ;;
  orelse (verdict v2 ;;; retain (Some ex)) (drop config) ;;;
  dt <~ get_data cs ;;
  match dt with
  | PSpace params clauses dists rng =>
      set_data cs (PSpace params (clauses ++ [ex]) dists rng) ;;; drop config
  | _ => fun _ => Undef UBBounds
  end.

(** ccs_configuration_space_sample: src/configuration_space.c 1051-1079; [tries]:
    what the successive calls of _sample do (an error, or found or not); calls
    after the end of the list find. *)
Inductive try := TFound | TMissed | TError (c : Z).

Fixpoint sample_loop (n : nat) (l : list try) : prog unit :=
  match n with
  | O => raise ERR_SAMPLING_UNSUCCESSFUL
  | S k => match l with
           | [] => ret tt
           | TFound :: _ => ret tt
           | TMissed :: l' => sample_loop k l'
           | TError c :: _ => raise c
           end
  end.

Definition space_sample (x : option handle) (l : list try) : prog handle :=
  cs <~ check_obj x T_CONFIGURATION_SPACE ;;
  config <~ create_configuration (Some cs) (VNull 0) ;;
  orelse (sample_loop 100 l) (drop config) ;;;
  ret config.

(** ccs_configuration_space_samples: src/configuration_space.c 1081-1122.  The
    array of the caller is returned with the result code: it is filled as far as
    the loop went.  When not enough samples are found the configuration in
    progress is not released. *)
Fixpoint samples_loop (cs : handle) (n : nat) (want : nat) (cur : option handle)
         (arr : list handle) (l : list try) : prog (Z * list handle) :=
  if (length arr <? want)%nat then
    match n with
    | O => ret (ERR_SAMPLING_UNSUCCESSFUL, arr)
    | S k => fun s =>
        match (match cur with
               | Some c => Done c s
               | None => create_configuration (Some cs) (VNull 0) s
               end) with
        | Undef w => Undef w
        | Fail c s1 => Done (c, arr) s1
        | Done config s1 =>
            match l with
            | TMissed :: l' => samples_loop cs k want (Some config) arr l' s1
            | TError c :: _ => (drop config ;;; ret (c, arr)) s1
            | _ => samples_loop cs k want None (arr ++ [config]) (tl l) s1
            end
        end
    end
  else ret (CCS_RESULT_SUCCESS, arr).

Definition space_samples (x : option handle) (want : nat) (l : list try)
  : prog (Z * list handle) :=
  cs <~ check_obj x T_CONFIGURATION_SPACE ;;
  samples_loop cs (100 * want) want None [] l.

(** ccs_configuration_space_set_distribution: src/configuration_space.c 547-693.
    The wrapper of the parameter of index [i]: *)
Definition wrapper_of (dists : list (handle * list nat)) (i : nat) : option (handle * list nat) :=
  find (fun w => existsb (Nat.eqb i) (snd w)) dists.
Definition same_wrapper (a b : handle * list nat) : bool :=
  if list_eq_dec Nat.eq_dec (snd a) (snd b) then true else false.

(** 592-603, the wrappers to delete. *)
Fixpoint to_delete (dists : list (handle * list nat)) (idx : list nat)
         (acc : list (handle * list nat)) : option (list (handle * list nat)) :=
  match idx with
  | [] => Some acc
  | i :: idx' =>
      match wrapper_of dists i with
      | None => None
      | Some w => to_delete dists idx' (if existsb (same_wrapper w) acc then acc else acc ++ [w])
      end
  end.

Fixpoint distinct (l : list nat) : bool :=
  match l with [] => true | i :: l' => negb (existsb (Nat.eqb i) l') && distinct l' end.

(** 638-658, one default distribution per parameter left without; [added]: the
    distributions of the wrappers made so far.  A failing malloc jumps past the
    releases. *)
Fixpoint default_wrappers (added : list handle) (idx : list nat)
  : prog (list (handle * list nat)) :=
  match idx with
  | [] => ret []
  | i :: idx' =>
      alloc ;;;
      d <~ orelse (create_plain T_DISTRIBUTION) (drops added) ;;
      r <~ default_wrappers (added ++ [d]) idx' ;;
      ret ((d, [i]) :: r)
  end.

(** 660-666. *)
Fixpoint delete_wrappers (cs : handle) (l : list (handle * list nat)) : prog unit :=
  match l with
  | [] => ret tt
  | w :: l' =>
      dt <~ get_data cs ;;
      match dt with
      | PSpace params clauses dists rng =>
          set_data cs (PSpace params clauses
                              (filter (fun v => negb (same_wrapper w v)) dists) rng) ;;;
          drop (fst w) ;;;
          delete_wrappers cs l'
      | _ => fun _ => Undef UBBounds
      end
  end.

Definition set_distribution (x d : option handle) (idx : list nat) : prog unit :=
  cs <~ check_obj x T_CONFIGURATION_SPACE ;;
  dh <~ check_obj d T_DISTRIBUTION ;;
  dt <~ get_data cs ;;
  match dt with
  | PSpace params clauses dists rng =>
      refutep (negb (forallb (fun i => (i <? length params)%nat) idx) || negb (distinct idx))
              ERR_INVALID_VALUE ;;;
      alloc ;;;
      match to_delete dists idx [] with
      | None => fun _ => Undef UBBounds
      | Some del =>
          alloc ;;;
          retain (Some dh) ;;;
          more <~ default_wrappers [dh]
                    (filter (fun i => negb (existsb (Nat.eqb i) idx)) (flat_map snd del)) ;;
          delete_wrappers cs del ;;;
          dt2 <~ get_data cs ;;
          match dt2 with
          | PSpace params2 clauses2 dists2 rng2 =>
              set_data cs (PSpace params2 clauses2 (dists2 ++ (dh, idx) :: more) rng2)
          | _ => fun _ => Undef UBBounds
          end
      end
  | _ => fun _ => Undef UBBounds
  end.

(** ccs_tree_set_child: src/tree.c 261-292; [v1]: the child already has a parent,
    [v2]: the verdict of _ccs_tree_update_weight. *)
Definition tree_set_child (x : option handle) (i : nat) (c : option handle) (v1 v2 : option Z)
  : prog unit :=
  tree <~ check_obj x T_TREE ;;
  child <~ check_obj c T_TREE ;;
  dt <~ get_data tree ;;
  match dt with
  | PTree children =>
      match nth_error children i with
      | None => raise ERR_OUT_OF_BOUNDS
      | Some (Some _) => raise ERR_INVALID_VALUE
      | Some None =>
          verdict v1 ;;;
          retain (Some child) ;;;
          set_data tree (PTree (set_nth children i (Some child))) ;;;
          orelse (verdict v2)
                 (drop child ;;; set_data tree (PTree children))
      end
  | _ => fun _ => Undef UBBounds
  end.

(** The tell functions of the random tuners: src/tuner_random.c 179-245,
    src/features_tuner_random.c 187-254, src/tree_tuner_random.c; the optima
    borrow the references of the history.  Each evaluation comes with: is its
    result SUCCESS. *)
Definition remember (p : payload) (e : handle) : option payload :=
  match p with
  | PTuner cs os hist => Some (PTuner cs os (hist ++ [e]))
  | PFeaturesTuner cs os fs hist => Some (PFeaturesTuner cs os fs (hist ++ [e]))
  | _ => None
  end.

Fixpoint tell_loop (t : Z) (tun : handle) (l : list (option handle * bool)) : prog unit :=
  match l with
  | [] => ret tt
  | (x, good) :: l' =>
      e <~ check_obj x t ;;
      (if good then
         ignore (retain (Some e)) ;;;
         dt <~ get_data tun ;;
         match remember dt e with
         | Some p => set_data tun p
         | None => fun _ => Undef UBBounds
         end
       else ret tt) ;;;
      tell_loop t tun l'
  end.

(** [t]: the type of tuner, [te]: the type of evaluation it accepts; user defined
    tuners only call the user's function. *)
Definition tuner_tell (t te : Z) (x : option handle) (l : list (option handle * bool)) : prog unit :=
  tun <~ check_obj x t ;;
  dt <~ get_data tun ;;
  match user_del dt with
  | Some _ => ret tt
  | None => tell_loop te tun l
  end.

(** Keys and values of maps: an owned object (not flagged ID), or anything else.
    _ccs_map_check_datum: src/map.c 170-180. *)
Inductive mdatum := MObject (x : option handle) | MOther.
Definition hold (d : mdatum) : prog (option handle) :=
  match d with
  | MObject x => retain x ;;; ret x
  | MOther => ret None
  end.
Definition odrop (x : option handle) : prog unit :=
  match x with Some h => drop h | None => ret tt end.

Definition map_entries (m : handle) : prog (list entry) :=
  dt <~ get_data m ;;
  match dt with PMap l => ret l | _ => fun _ => Undef UBBounds end.

(** _ccs_map_remove: src/map.c 26-33, the first entry with this key. *)
Fixpoint without (k : Z) (l : list entry) : list entry :=
  match l with
  | [] => []
  | e :: l' => if e_key e =? k then l' else e :: without k l'
  end.
Definition map_remove (m : handle) (e : entry) : prog unit :=
  l <~ map_entries m ;;
  set_data m (PMap (without (e_key e) l)) ;;;
  odrop (e_kobj e) ;;;
  odrop (e_vobj e).

(** ccs_map_set: src/map.c 196-243; [same]: the value equals the one stored. *)
Definition map_set (x : option handle) (k : Z) (kd vd : mdatum) (same : bool) : prog unit :=
  m <~ check_obj x T_MAP ;;
  l <~ map_entries m ;;
  let old := find (fun e => e_key e =? k) l in
  match old, same with
  | Some _, true => ret tt
  | _, _ =>
      ko <~ hold kd ;;
      vo <~ orelse (hold vd) (odrop ko) ;;
      orelse alloc (odrop vo ;;; odrop ko) ;;;
      (match old with Some e => map_remove m e | None => ret tt end) ;;;
      l2 <~ map_entries m ;;
      set_data m (PMap (l2 ++ [mkEntry k ko vo]))
  end.

(** ccs_map_del: src/map.c 271-280. *)
Definition map_del (x : option handle) (k : Z) : prog unit :=
  m <~ check_obj x T_MAP ;;
  l <~ map_entries m ;;
  match find (fun e => e_key e =? k) l with
  | None => raise ERR_INVALID_VALUE
  | Some e => map_remove m e
  end.

(** The calls an application can make.  Each returns the handles it gives to the
    application, with the result code. *)
Inductive op : Type :=
| ORetain (x : option handle)
| ORelease (x : option handle)
| OCallback (x : option handle) (cb ud : Z)
| OPlain (t : Z)
| OMap
| OContext (features : bool)
| OSpace
| OMultivariate (l : list (option handle))
| OMixture (l : list (option handle)) (v1 v2 : option Z)
| OVariable (x : option handle)
| OExpression (l : list node) (v : option Z)
| OConfiguration (x : option handle) (v : values)
| OFeatures (x : option handle) (v : values)
| OEvaluation (xo xc : option handle) (v : values)
| OTreeEvaluation (xo xc : option handle) (v : values)
| OFeaturesEvaluation (xo xc xf : option handle) (v : values)
| OTreeConfiguration (x : option handle) (null : bool)
| ORandomTuner (xc xo : option handle)
| ORandomTreeTuner (xt xo : option handle)
| ORandomFeaturesTuner (xc xf xo : option handle)
| OUserTuner (xc xo : option handle) (null : bool) (code : Z)
| OUserTreeTuner (xt xo : option handle) (null : bool) (code : Z)
| OUserFeaturesTuner (xc xf xo : option handle) (null : bool) (code : Z)
| OTree (arity : nat) (v : option Z)
| OStaticTreeSpace (x : option handle)
| ODynamicTreeSpace (x : option handle) (null : bool) (code : Z)
| OSetRng (x r : option handle)
| OTreeSetRng (x r : option handle)
| OAddParameter (x p d : option handle) (v : option Z) (dim1 : bool)
| OContextAddParameter (features : bool) (x p : option handle) (v : option Z)
| OAddObjective (x e : option handle) (v : option Z)
| OSetCondition (x : option handle) (i : nat) (e : option handle) (v : option Z)
| OAddForbidden (x e : option handle) (v1 vd v2 : option Z)
| ODefault (x : option handle) (v : option Z)
| OSample (x : option handle) (l : list try)
| OSamples (x : option handle) (want : nat) (l : list try)
| OSetDistribution (x d : option handle) (idx : list nat)
| OSetChild (x : option handle) (i : nat) (c : option handle) (v1 v2 : option Z)
| OTell (t : Z) (x : option handle) (l : list (option handle * bool))
| OMapSet (x : option handle) (k : Z) (kd vd : mdatum) (same : bool)
| OMapDel (x : option handle) (k : Z).

Definition give (p : prog handle) : prog (Z * list handle) :=
  h <~ p ;; ret (CCS_RESULT_SUCCESS, [h]).
Definition act (p : prog unit) : prog (Z * list handle) :=
  p ;;; ret (CCS_RESULT_SUCCESS, []).

Definition evaluation_type (t : Z) : Z :=
  if t =? T_TUNER then T_EVALUATION
  else if t =? T_TREE_TUNER then T_TREE_EVALUATION else T_FEATURES_EVALUATION.

Definition context_type (features : bool) : Z :=
  if features then T_FEATURES_SPACE else T_OBJECTIVE_SPACE.

Definition call (o : op) : prog (Z * list handle) :=
  match o with
  | ORetain x => act (retain x)
  | ORelease x => act (release x)
  | OCallback x cb ud => act (set_destroy_callback x cb ud)
  | OPlain t => give (create_plain t)
  | OMap => give create_map
  | OContext f => give (create_context (context_type f))
  | OSpace => give create_configuration_space
  | OMultivariate l => give (create_multivariate l)
  | OMixture l v1 v2 => give (create_mixture l v1 v2)
  | OVariable x => give (create_variable x)
  | OExpression l v => give (create_expression l v)
  | OConfiguration x v => give (create_configuration x v)
  | OFeatures x v => give (create_features x v)
  | OEvaluation xo xc v => give (create_evaluation xo xc v)
  | OTreeEvaluation xo xc v => give (create_tree_evaluation xo xc v)
  | OFeaturesEvaluation xo xc xf v => give (create_features_evaluation xo xc xf v)
  | OTreeConfiguration x null => give (create_tree_configuration x null)
  | ORandomTuner xc xo => give (create_random_tuner xc xo)
  | ORandomTreeTuner xt xo => give (create_random_tree_tuner xt xo)
  | ORandomFeaturesTuner xc xf xo => give (create_random_features_tuner xc xf xo)
  | OUserTuner xc xo null code => give (create_user_tuner xc xo null code)
  | OUserTreeTuner xt xo null code => give (create_user_tree_tuner xt xo null code)
  | OUserFeaturesTuner xc xf xo null code => give (create_user_features_tuner xc xf xo null code)
  | OTree arity v => give (create_tree arity v)
  | OStaticTreeSpace x => give (create_static_tree_space x)
  | ODynamicTreeSpace x null code => give (create_dynamic_tree_space x null code)
  | OSetRng x r => act (space_set_rng x r)
  | OTreeSetRng x r => act (tree_space_set_rng x r)
  | OAddParameter x p d v dim1 => act (space_add_parameter x p d v dim1)
  | OContextAddParameter f x p v => act (context_add_parameter (context_type f) x p v)
  | OAddObjective x e v => act (add_objective x e v)
  | OSetCondition x i e v => act (set_condition x i e v)
  | OAddForbidden x e v1 vd v2 => act (add_forbidden_clause x e v1 vd v2)
  | ODefault x v => give (get_default_configuration x v)
  | OSample x l => give (space_sample x l)
  | OSamples x want l => space_samples x want l
  | OSetDistribution x d idx => act (set_distribution x d idx)
  | OSetChild x i c v1 v2 => act (tree_set_child x i c v1 v2)
  | OTell t x l => act (tuner_tell t (evaluation_type t) x l)
  | OMapSet x k kd vd same => act (map_set x k kd vd same)
  | OMapDel x k => act (map_del x k)
  end.

(** One call as the application sees it: a code, the handles given, the state. *)
Definition step (o : op) (s : st) : out (Z * list handle) :=
  match call o s with
  | Done r s1 => Done r s1
  | Fail c s1 => Done (c, []) s1
  | Undef w => Undef w
  end.

Definition start (mem : list bool) : st := mkSt [] [] mem.
