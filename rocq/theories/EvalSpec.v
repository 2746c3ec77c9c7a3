(** Independent description of comparisons between evaluations and of tuners. *)
From Coq Require Import ZArith List Bool.
From Verif Require Import Base Datum FloatModel FloatSpec CmpModel CmpSpec ParamModel ParamSpec ContextModel ContextSpec ExprModel EvalModel.
Import ListNotations.
Open Scope Z_scope.

(** ** Objective by objective *)
Inductive lower : value -> value -> Prop :=
| lower_int i j : i < j -> lower (VInt i) (VInt j)
| lower_float f g : klt (fkey f) (fkey g) -> lower (VFloat f) (VFloat g).
(** type 1 is an objective to maximise *)
Definition preferred (t : Z) (x y : value) : Prop := (t <> 1 /\ lower x y) \/ (t = 1 /\ lower y x).
Definition commensurable (x y : value) : Prop :=
  type_of x = type_of y /\ (type_of x = TYPE_INT \/ type_of x = TYPE_FLOAT).
Definition nan (v : value) : Prop := exists f, v = VFloat f /\ fkey f = None.

(** an objective and its values for two evaluations *)
Record column : Type := mkColumn { k_type : Z; k_left : res datum; k_right : res datum }.
Definition measured (c : column) (P : value -> value -> Prop) : Prop :=
  exists x y, k_left c = Ok x /\ k_right c = Ok y /\ P (d_val x) (d_val y).
Definition measurable (c : column) : Prop := measured c commensurable.
Definition gains (c : column) : Prop := measured c (preferred (k_type c)).
Definition loses (c : column) : Prop := measured c (fun x y => preferred (k_type c) y x).
Definition conflict (l : list column) : Prop := Exists gains l /\ Exists loses l.
Definition fails {A} (r : res A) : Prop := forall a, r <> Ok a.
Definition failed {A B} (r : res A) (s : res B) : Prop :=
  match r with Ok _ => False | Err c => s = Err c | UB u => s = UB u end.

(** The verdict.  Objectives are examined in order and the first failure, conflict or
    pair of values of different kinds settles it. *)
Inductive pareto : list column -> res Z -> Prop :=
| pareto_better l : Forall measurable l -> Exists gains l -> ~ Exists loses l -> pareto l (Ok (-1))
| pareto_worse l : Forall measurable l -> Exists loses l -> ~ Exists gains l -> pareto l (Ok 1)
| pareto_equivalent l : Forall measurable l -> ~ Exists gains l -> ~ Exists loses l -> pareto l (Ok 0)
| pareto_conflict l1 l2 : Forall measurable l1 -> conflict l1 -> pareto (l1 ++ l2) (Ok 2)
| pareto_unlike l1 c l2 : Forall measurable l1 -> ~ conflict l1 -> measured c (fun x y => ~ commensurable x y) ->
    pareto (l1 ++ c :: l2) (Ok 2)
| pareto_left l1 c l2 r : Forall measurable l1 -> ~ conflict l1 -> failed (k_left c) r -> pareto (l1 ++ c :: l2) r
| pareto_right l1 c l2 x r : Forall measurable l1 -> ~ conflict l1 -> k_left c = Ok x -> failed (k_right c) r ->
    pareto (l1 ++ c :: l2) r.

Section World.
  Variable heap : Z -> param.
  Variable jen : list Z -> Z.
  (** the value of an objective for an evaluation *)
  Definition value_of (w : world) (e : Z) (x : expr) : res datum :=
    eval heap jen (Some (sp_ctx (w_space w (ev_space (w_eval w e))))) (Some (ev_values (w_eval w e))) x.
  Definition objectives (w : world) (e : Z) : list (expr * Z) := sp_objectives (w_space w (ev_space (w_eval w e))).
  Definition columns (w : world) (a b : Z) : list column :=
    map (fun o => mkColumn (snd o) (value_of w a (fst o)) (value_of w b (fst o))) (objectives w a).
  Definition same_features (w : world) (a b : Z) : Prop :=
    same_binding (w_features w (ev_features (w_eval w a))) (w_features w (ev_features (w_eval w b))).
  Definition ok_result (w : world) (e : Z) : Prop := ev_result (w_eval w e) = 0.
  Definition same_space (w : world) (a b : Z) : Prop := ev_space (w_eval w a) = ev_space (w_eval w b).

  (** Comparison of two evaluations; [feat] for features evaluations *)
  Inductive compares (feat : bool) (w : world) (a b : Z) : res Z -> Prop :=
  | compares_itself : a = b -> compares feat w a b (Ok 0)
  | compares_refused : a <> b -> (~ ok_result w a \/ ~ ok_result w b \/ ~ same_space w a b) ->
      compares feat w a b (Err ERR_INVALID_OBJECT)
  | compares_features : a <> b -> ok_result w a -> ok_result w b -> same_space w a b ->
      feat = true -> ~ same_features w a b -> compares feat w a b (Ok 2)
  | compares_objectives r : a <> b -> ok_result w a -> ok_result w b -> same_space w a b ->
      (feat = true -> same_features w a b) -> pareto (columns w a b) r -> compares feat w a b r.

  (** [a] dominates [b]; [a] and [b] are tied *)
  Definition dominates (feat : bool) (w : world) (a b : Z) : Prop :=
    (feat = true -> same_features w a b) /\
    Forall measurable (columns w a b) /\ Exists gains (columns w a b) /\ ~ Exists loses (columns w a b).
  Definition tied (feat : bool) (w : world) (a b : Z) : Prop :=
    a = b \/ ((feat = true -> same_features w a b) /\
              Forall measurable (columns w a b) /\ ~ Exists gains (columns w a b) /\ ~ Exists loses (columns w a b)).
  (** all objectives have a value, which is not NaN *)
  Definition assessed (w : world) (e : Z) : Prop :=
    forall o, In o (objectives w e) -> exists d, value_of w e (fst o) = Ok d /\ wf_datum d /\ ~ nan (d_val d).

  (** ** Value vectors *)
  Definition admissible (A : list Z) (vs : list datum) : Prop :=
    length vs = length A /\ forall i p v, nth_error A i = Some p -> nth_error vs i = Some v -> domain (heap p) (d_val v).
End World.
