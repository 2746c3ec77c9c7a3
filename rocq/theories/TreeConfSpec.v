(** What tree configurations promise. *)
From Coq Require Import ZArith List Bool.
From Verif Require Import Base Datum CodecModel CodecSpec CmpModel CmpSpec ParamSpec TreeModel TreeSpec RngModel TreeSpaceModel TreeSpaceSpec TreeConfModel.
Import ListNotations.
Open Scope Z_scope.

(** What identifies a configuration, in the order in which it counts *)
Definition conf_key (c : tconf) : list Z := tc_space c :: lenZ (tc_pos c) :: tc_pos c.
(** Two configurations that are the same object *)
Definition consistent (a b : tconf) : Prop := tc_id a = tc_id b -> a = b.
(** The position as numbers of children *)
Definition steps (c : tconf) : list nat := map Z.to_nat (tc_pos c).

(** The type of tree configurations and the handle, the handle of the space, the number of
    steps, the steps, the user data. *)
Inductive wire_sizes : list Z -> list Z -> Prop :=
| ws_nil : wire_sizes [] []
| ws_cons x l b bs : leb128 x b -> wire_sizes l bs -> wire_sizes (x :: l) (b ++ bs).
Definition wire_conf (c : tconf) (bs : list Z) : Prop :=
  exists lh sp ln ps ub,
    leb128 (tc_id c) lh /\ leb128 (tc_space c) sp /\ leb128 (lenZ (tc_pos c)) ln /\ wire_sizes (tc_pos c) ps /\
    wire_blob (ud_bytes (tc_ud c)) ub /\ bs = (17 :: lh) ++ sp ++ ln ++ ps ++ ub.
Definition storable_conf (c : tconf) : Prop :=
  in_unsigned 64 (tc_id c) /\ in_unsigned 64 (tc_space c) /\ Forall (in_unsigned 64) (tc_pos c) /\
  lenZ (tc_pos c) < 2 ^ 61 /\ lenZ (ud_bytes (tc_ud c)) < 2 ^ 64.

(** The map after the new object [id] was recorded under [k] *)
Definition recorded (m m' : hmap) (k id : Z) : Prop :=
  forall x, m' x = if x =? k then Some (ccs_object id) else m x.
