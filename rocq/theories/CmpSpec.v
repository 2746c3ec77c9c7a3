(** Independent description of the order on values and bindings. *)
From Coq Require Import ZArith List Bool.
From Verif Require Import Base Datum FloatModel FloatSpec CmpModel.
Import ListNotations.
Open Scope Z_scope.

(** Lexicographic order on number lists, a strict prefix being smaller. *)
Inductive lex : list Z -> list Z -> Prop :=
| lex_nil x l : lex [] (x :: l)
| lex_lt x y l m : x < y -> lex (x :: l) (y :: m)
| lex_eq x l m : lex l m -> lex (x :: l) (x :: m).

(** i-th digit in base 256, least significant first *)
Definition digits8 (x : Z) : list Z :=
  map (fun i => (x / 256 ^ Z.of_nat i) mod 256) (seq 0 8).

(** Values are ordered by kind, then strings as their characters (NULL first),
    other kinds as the bytes of their machine representation. *)
Definition value_key (v : value) : list Z :=
  type_of v ::
  match v with
  | VNone | VInactive => []
  | VString None => []
  | VString (Some s) => 0 :: s
  | VInt i | VBool i | VUnknown _ i => digits8 (i mod 2 ^ 64)
  | VFloat f => digits8 f
  | VObject h => digits8 h
  end.

(** [cmp] presents the strict order [lt]. *)
Definition presents {A : Type} (cmp : A -> A -> Z) (lt : A -> A -> Prop) (a b : A) : Prop :=
  (cmp a b < 0 <-> lt a b) /\ (cmp a b > 0 <-> lt b a).

Definition total_order {A : Type} (P : A -> Prop) (cmp : A -> A -> Z) (same : A -> A -> Prop) : Prop :=
  (forall a b, P a -> P b -> (cmp a b = 0 <-> same a b)) /\
  (forall a b, P a -> P b -> (cmp a b < 0 <-> cmp b a > 0)) /\
  (forall a b c, P a -> P b -> P c -> cmp a b < 0 -> cmp b c < 0 -> cmp a c < 0).

Definition wf_datum (d : datum) : Prop := wf_value (d_val d).
Inductive vlex : list datum -> list datum -> Prop :=
| vlex_lt x y l m : lex (value_key (d_val x)) (value_key (d_val y)) -> vlex (x :: l) (y :: m)
| vlex_eq x y l m : d_val x = d_val y -> vlex l m -> vlex (x :: l) (y :: m).

Definition wf_binding (b : binding) : Prop := Forall wf_datum (b_values b) /\ in_unsigned 64 (b_context b).
Definition same_binding (a b : binding) : Prop :=
  b_context a = b_context b /\ map d_val (b_values a) = map d_val (b_values b).
(** context, then number of values, then values *)
Definition binding_lt (a b : binding) : Prop :=
  b_context a < b_context b \/
  (b_context a = b_context b /\
   ((length (b_values a) < length (b_values b))%nat \/
    (length (b_values a) = length (b_values b) /\ vlex (b_values a) (b_values b)))).

(** Public comparison: numbers are compared as numbers. *)
Definition num_lt (a b : value) : Prop :=
  match a, b with
  | VInt i, VInt j => i < j
  | VFloat x, VFloat y => klt (fkey x) (fkey y)
  | _, _ => lex (value_key a) (value_key b)
  end.
Definition no_nan (d : datum) : Prop := wf_datum d /\ match d_val d with VFloat f => fkey f <> None | _ => True end.
Definition num_same (a b : value) : Prop :=
  match a, b with
  | VFloat x, VFloat y => keq (fkey x) (fkey y)
  | _, _ => a = b
  end.

