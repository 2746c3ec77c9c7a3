(** Independent description of objective spaces' accessors and of value checks. *)
From Coq Require Import ZArith List Bool.
From Verif Require Import Base Datum CmpModel CmpSpec ParamModel ParamSpec ContextModel ContextSpec ExprModel ExprSpec EvalModel EvalSpec.
Import ListNotations.
Open Scope Z_scope.

(** The array [a] after values were written at its beginning *)
Definition overwritten (a front : list datum) : list datum := front ++ skipn (length front) a.
(** Asking for the objective values [l] with an array [a] *)
Inductive gives (l : list (res datum)) : option (list datum) -> res nat * option (list datum) -> Prop :=
| gives_count : gives l None (Ok (length l), None)
| gives_long a : (length l < length a)%nat -> gives l (Some a) (Err ERR_INVALID_VALUE, Some a)
| gives_all a ds : l = map Ok ds -> length a = length l -> gives l (Some a) (Ok (length l), Some ds)
| gives_failure a ds x rest r : l = map Ok ds ++ x :: rest -> (length ds <= length a <= length l)%nat -> failed x r ->
    gives l (Some a) (r, Some (overwritten a ds))
| gives_overrun a ds x rest : l = map Ok ds ++ Ok x :: rest -> length a = length ds ->
    gives l (Some a) (UB UBBounds, Some ds).

(** A new objective *)
Inductive added (A : list Z) (l : list (expr * Z)) (e : expr) (t : Z) : Z -> list (expr * Z) -> Prop :=
| added_ok : (forall h, occurs h e -> In h A) -> added A l e t 0 (l ++ [(e, t)])
| added_foreign h : occurs h e -> ~ In h A -> added A l e t ERR_INVALID_PARAMETER l.
(** Several ones, up to the first that is refused *)
Inductive adds (A : list Z) (l : list (expr * Z)) (new : list (expr * Z)) : Z -> list (expr * Z) -> Prop :=
| adds_all : (forall e t, In (e, t) new -> forall h, occurs h e -> In h A) -> adds A l new 0 (l ++ new)
| adds_some l1 e t l2 h : new = l1 ++ (e, t) :: l2 -> (forall e t, In (e, t) l1 -> forall h, occurs h e -> In h A) ->
    occurs h e -> ~ In h A -> adds A l new ERR_INVALID_PARAMETER (l ++ l1).

(** Checking a vector of values *)
Inductive verdict (heap : Z -> param) (A : list Z) (code : Z) (vs : list datum) : res bool -> Prop :=
| verdict_length : length vs <> length A -> verdict heap A code vs (Err code)
| verdict_valid : admissible heap A vs -> verdict heap A code vs (Ok true)
| verdict_invalid i p v : length vs = length A -> nth_error A i = Some p -> nth_error vs i = Some v ->
    ~ domain (heap p) (d_val v) -> verdict heap A code vs (Ok false).
