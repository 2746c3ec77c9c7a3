(** What the users of doubly linked lists may rely on. *)
From Coq Require Import ZArith List Bool Relations.
From Verif Require Import Base DlistModel.
Import ListNotations.
Open Scope Z_scope.

(** The memory the application holds, and the list *)
Record view : Type := mkView { v_live : Z -> bool; v_list : list Z }.

(** The obligations of the application: memory it gives back or fills is not in the list,
    only elements of the list are deleted, an element is appended once, its memory being
    held *)
Definition may (N : nat) (v : view) (o : op) : Prop :=
  match o with
  | New a _ _ => a <> 0 /\ ~ In a (v_list v)
  | Free a => ~ In a (v_list v)
  | Append a => a <> 0 /\ v_live v a = true /\ ~ In a (v_list v) /\ (length (v_list v) + 1 <= N)%nat
  | Delete a => In a (v_list v)
  | _ => True
  end.

Inductive does (v : view) : op -> out -> view -> Prop :=
| does_new : forall a p n, does v (New a p n) Nothing (mkView (put (v_live v) a true) (v_list v))
| does_free : forall a, does v (Free a) Nothing (mkView (put (v_live v) a false) (v_list v))
| does_append : forall a, does v (Append a) Nothing (mkView (v_live v) (v_list v ++ [a]))
| does_delete : forall l1 a l2, v_list v = l1 ++ a :: l2 ->
    does v (Delete a) Nothing (mkView (v_live v) (l1 ++ l2))
| does_head : forall l a, v_list v = a :: l -> does v Head (At a) v
| does_not_head : v_list v = [] -> does v Head (At 0) v
| does_each : does v Each (Seen (v_list v)) v
| does_count : does v Count (Number (Z.of_nat (length (v_list v)))) v
| does_drain : forall live',
    (forall a, live' a = if existsb (Z.eqb a) (v_list v) then false else v_live v a) ->
    does v Drain (Seen (v_list v)) (mkView live' []).

Fixpoint legal (N : nat) (v : view) (p : client) : Prop :=
  match p with
  | Stop => True
  | Do o k => may N v o /\ forall x v', does v o x v' -> legal N v' (k x)
  end.
Fixpoint told (v : view) (p : client) (l : list out) : Prop :=
  match p, l with
  | Stop, [] => True
  | Do o k, x :: l' => exists v', does v o x v' /\ told v' (k x) l'
  | _, _ => False
  end.
Definition empty : view := mkView (fun _ => false) [].

(** Parents and children of every node, as two views of the same edges *)
Definition graph (parents children : list (list nat)) : Prop :=
  length children = length parents /\ Z.of_nat (length parents) < 2 ^ 32
  /\ (forall i, NoDup (nth i parents [])) /\ (forall i, NoDup (nth i children []))
  /\ (forall i j, In j (nth i parents []) -> (i < length parents)%nat -> (j < length parents)%nat)
  /\ (forall i j, In i (nth j children []) <-> (i < length parents)%nat /\ In j (nth i parents [])).

(** The node [j] is a parent of the node [i] *)
Definition edge (parents : list (list nat)) (j i : nat) : Prop :=
  (i < length parents)%nat /\ In j (nth i parents []).
(** The node [i] is on a cycle or hangs behind one *)
Definition behind_cycle (parents : list (list nat)) (i : nat) : Prop :=
  exists c, clos_trans nat (edge parents) c c /\ clos_refl_trans nat (edge parents) c i.
