(** The serialised form of trees. *)
From Coq Require Import ZArith List Bool.
From Verif Require Import Base Datum CodecModel CodecSpec FloatModel DistModel TreeModel TreeSpec.
Import ListNotations.
Open Scope Z_scope.

(** A node: the type of trees and the handle, the arity, the weight of the node, the
    children, the bias, the value and the user data. A child: 0 when missing, or 1 and the
    child. *)
Inductive wire_tree (h : heap) : nat -> list Z -> Prop :=
| wire_node id v lh la cs vb ub :
    seen h id = Some v ->
    leb128 (Z.of_nat id) lh ->
    leb128 (Z.of_nat (v_arity v)) la ->
    wire_kids h (v_children v) cs ->
    wire_datum (d_val (v_value v)) vb ->
    wire_blob (ud_bytes (v_ud v)) ub ->
    wire_tree h id ((15 :: lh) ++ la ++ word 8 (v_weight v) ++ cs ++ word 8 (v_bias v) ++ vb ++ ub)
with wire_kids (h : heap) : list (option nat) -> list Z -> Prop :=
| wire_nil : wire_kids h [] []
| wire_none l bs : wire_kids h l bs -> wire_kids h (None :: l) ([0] ++ bs)
| wire_some c l b bs : wire_tree h c b -> wire_kids h l bs -> wire_kids h (Some c :: l) ([1] ++ b ++ bs).

(** The same tree, empty user data being no user data *)
Definition restored_ud (ud : option (list Z)) : option (list Z) := match ud with Some [] => None | _ => ud end.
Fixpoint restored_tree (T : ttree) : ttree :=
  match T with
  | TNode v own b kids ud =>
      TNode v own b (map (fun k => match k with None => None | Some c => Some (restored_tree c) end) kids) (restored_ud ud)
  end.
(** Nothing in the tree has user data *)
Inductive plain : ttree -> Prop :=
| plain_node v own b kids ud : ud_bytes ud = [] -> (forall c, In (Some c) kids -> plain c) -> plain (TNode v own b kids ud).
(** What an application stored can be written *)
Definition storable_heap (h : heap) : Prop :=
  Z.of_nat (length h) <= 2 ^ 64 /\ forall x v, seen h x = Some v -> lenZ (ud_bytes (v_ud v)) < 2 ^ 64.
