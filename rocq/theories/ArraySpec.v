(** What the users of growable arrays may rely on: an array is the list of its elements.
    An array also has the room of the memory it holds, and the number of slots it counts
    on: they differ only once memory lacked. *)
From Coq Require Import ZArith List Bool Permutation Sorted.
From Verif Require Import Base ArrayModel.
Import ListNotations.
Open Scope Z_scope.

Record view : Type := mkView {
  v_sz : Z; v_elems : list (list cell); v_base : Z; v_room : Z; v_slots : Z }.
Definition views : Type := Z -> option view.
Definition lenZ {A : Type} (l : list A) : Z := Z.of_nat (length l).

(** Where an element is *)
Definition place (v : view) (j : nat) : ptr := Some (v_base v, v_sz v * Z.of_nat j).
Definition elements (v : view) (l : list (list cell)) : view :=
  mkView (v_sz v) l (v_base v) (v_room v) (v_slots v).

(** The address is not in use by another array *)
Definition unused (vs : views) (a ans : Z) : Prop :=
  forall b w, vs b = Some w -> b <> a -> v_base w <> ans.

(** The number written in the bytes *)
Definition number (e : list cell) : Z :=
  fold_right (fun c x => match c with Some b => b | None => 0 end + 256 * x) 0 e.
Definition is_size (e : list cell) : Prop :=
  length e = 8%nat /\ Forall (fun c => exists b, c = Some b /\ 0 <= b < 256) e.

(** The obligations of the application.  An array that lacked memory is not to be
    filled beyond its room. *)
Definition has_room (v : view) (n : Z) : Prop := n <= v_room v \/ v_room v = v_slots v.
Definition pointed (vs : views) (p : ptr) (a : Z) (v : view) (j : nat) : Prop :=
  vs a = Some v /\ p = place v j /\ (j < length (v_elems v))%nat.

Definition may (N : Z) (vs : views) (o : op) : Prop :=
  match o with
  | New sz ans => 0 < sz < 2 ^ 32 /\ (ans <> 0 -> vs ans = None)
  | Push a e ans =>
      exists v, vs a = Some v /\ lenZ e = v_sz v /\ lenZ (v_elems v) + 1 <= N
                /\ has_room v (lenZ (v_elems v) + 1) /\ unused vs a ans
  | Pop a => exists v, vs a = Some v /\ v_elems v <> []
  | Resize a num ans =>
      exists v, vs a = Some v /\ 0 <= num <= N /\ has_room v num /\ unused vs a ans
  | Sort a ord =>
      exists v, vs a = Some v /\ Permutation (v_elems v) ord /\ v_room v <> 0
  | Uniq a ord ans =>
      exists v, vs a = Some v /\ v_sz v = 8 /\ Forall is_size (v_elems v)
                /\ Permutation (v_elems v) ord
                /\ StronglySorted (fun x y => number x <= number y) ord
  | Elt a j => 0 <= j /\ exists v, vs a = Some v
  | Free a | Clear a | Len a | Front a | Back a => exists v, vs a = Some v
  | Next a e | Prev a e => exists v, vs a = Some v /\ (e = None \/ exists j, pointed vs e a v j)
  | Each a sz _ => exists v, vs a = Some v /\ sz = v_sz v
  | Read p n => exists a v j, pointed vs p a v j /\ n = v_sz v
  | Write p e => exists a v j, pointed vs p a v j /\ lenZ e = v_sz v
  end.

(** The slots of an array that grows: a power of two, 8 at least, less than the double
    of what is needed *)
Definition fits (need r : Z) : Prop :=
  need <= r /\ (exists k, 0 <= k /\ r = 8 * 2 ^ k) /\ (r = 8 \/ r < 2 * need).

(** What an operation tells, and what the arrays are afterwards *)
Inductive does (vs : views) : op -> out -> views -> Prop :=
| does_new : forall sz ans, ans <> 0 ->
    does vs (New sz ans) (Did false) (put vs ans (Some (mkView sz [] 0 0 0)))
| does_not_new : forall sz, does vs (New sz 0) (Did true) vs
| does_free : forall a, does vs (Free a) Nothing (put vs a None)
| does_push : forall a v e ans,
    vs a = Some v -> lenZ (v_elems v) < v_slots v ->
    does vs (Push a e ans) (Did false) (put vs a (Some (elements v (v_elems v ++ [e]))))
| does_push_grow : forall a v e ans r,
    vs a = Some v -> lenZ (v_elems v) = v_slots v -> ans <> 0 ->
    fits (lenZ (v_elems v) + 1) r ->
    does vs (Push a e ans) (Did false)
      (put vs a (Some (mkView (v_sz v) (v_elems v ++ [e]) ans r r)))
| does_not_push : forall a v e r,
    vs a = Some v -> lenZ (v_elems v) = v_slots v -> fits (lenZ (v_elems v) + 1) r ->
    does vs (Push a e 0) (Did true)
      (put vs a (Some (mkView (v_sz v) (v_elems v) (v_base v) (v_room v) r)))
| does_pop : forall a v l e,
    vs a = Some v -> v_elems v = l ++ [e] ->
    does vs (Pop a) Nothing (put vs a (Some (elements v l)))
| does_clear : forall a v,
    vs a = Some v -> does vs (Clear a) Nothing (put vs a (Some (elements v [])))
| does_shrink : forall a v num ans,
    vs a = Some v -> num <= lenZ (v_elems v) ->
    does vs (Resize a num ans) (Did false)
      (put vs a (Some (elements v (firstn (Z.to_nat num) (v_elems v)))))
| does_extend : forall a v num ans,
    vs a = Some v -> lenZ (v_elems v) < num <= v_slots v ->
    does vs (Resize a num ans) (Did false)
      (put vs a (Some (elements v
        (v_elems v ++ repeat (repeat (Some 0) (Z.to_nat (v_sz v)))
                        (Z.to_nat (num - lenZ (v_elems v)))))))
| does_extend_grow : forall a v num ans r,
    vs a = Some v -> v_slots v < num -> ans <> 0 -> fits num r ->
    does vs (Resize a num ans) (Did false)
      (put vs a (Some (mkView (v_sz v)
        (v_elems v ++ repeat (repeat (Some 0) (Z.to_nat (v_sz v)))
                        (Z.to_nat (num - lenZ (v_elems v)))) ans r r)))
| does_not_extend : forall a v num r,
    vs a = Some v -> v_slots v < num -> fits num r ->
    does vs (Resize a num 0) (Did true)
      (put vs a (Some (mkView (v_sz v) (v_elems v) (v_base v) (v_room v) r)))
| does_sort : forall a v ord,
    vs a = Some v -> does vs (Sort a ord) Nothing (put vs a (Some (elements v ord)))
| does_uniq : forall a v ord ans l,
    vs a = Some v ->
    StronglySorted (fun x y => number x < number y) l ->
    (forall e, In e l <-> In e (v_elems v)) ->
    does vs (Uniq a ord ans) (Did false) (put vs a (Some (elements v l)))
| does_len : forall a v,
    vs a = Some v -> does vs (Len a) (Number (lenZ (v_elems v))) vs
| does_elt : forall a v j,
    vs a = Some v -> j < lenZ (v_elems v) ->
    does vs (Elt a j) (Place (place v (Z.to_nat j))) vs
| does_not_elt : forall a v j,
    vs a = Some v -> lenZ (v_elems v) <= j -> does vs (Elt a j) (Place None) vs
| does_front : forall a v,
    vs a = Some v -> v_elems v <> [] -> does vs (Front a) (Place (place v 0)) vs
| does_not_front : forall a v,
    vs a = Some v -> v_elems v = [] -> does vs (Front a) (Place None) vs
| does_back : forall a v,
    vs a = Some v -> v_elems v <> [] ->
    does vs (Back a) (Place (place v (length (v_elems v) - 1))) vs
| does_not_back : forall a v,
    vs a = Some v -> v_elems v = [] -> does vs (Back a) (Place None) vs
| does_first : forall a x, does vs (Front a) x vs -> does vs (Next a None) x vs
| does_next : forall a v j,
    vs a = Some v -> (j + 1 < length (v_elems v))%nat ->
    does vs (Next a (place v j)) (Place (place v (j + 1))) vs
| does_not_next : forall a v j,
    vs a = Some v -> (j + 1 = length (v_elems v))%nat ->
    does vs (Next a (place v j)) (Place None) vs
| does_last : forall a x, does vs (Back a) x vs -> does vs (Prev a None) x vs
| does_prev : forall a v j,
    vs a = Some v -> (j + 1 < length (v_elems v))%nat ->
    does vs (Prev a (place v (j + 1))) (Place (place v j)) vs
| does_not_prev : forall a v,
    vs a = Some v -> v_elems v <> [] -> does vs (Prev a (place v 0)) (Place None) vs
| does_each : forall a v sz (fw : bool),
    vs a = Some v ->
    does vs (Each a sz fw) (Elements (if fw then v_elems v else rev (v_elems v))) vs
| does_read : forall a v j n e,
    vs a = Some v -> nth_error (v_elems v) j = Some e ->
    does vs (Read (place v j) n) (Bytes e) vs
| does_write : forall a v l1 x l2 e,
    vs a = Some v -> v_elems v = l1 ++ x :: l2 ->
    does vs (Write (place v (length l1)) e) Nothing
      (put vs a (Some (elements v (l1 ++ e :: l2)))).

(** The applications that keep to their obligations whatever they are told *)
Fixpoint legal (N : Z) (vs : views) (p : client) : Prop :=
  match p with
  | Stop => True
  | Do o k => may N vs o /\ forall x vs', does vs o x vs' -> legal N vs' (k x)
  end.

(** The applications for which memory never lacks: nothing is asked about room *)
Definition answered (o : op) : Prop :=
  match o with New _ ans | Push _ _ ans | Resize _ _ ans => ans <> 0 | _ => True end.
Definition may_rich (N : Z) (vs : views) (o : op) : Prop :=
  match o with
  | Push a e ans =>
      exists v, vs a = Some v /\ lenZ e = v_sz v /\ lenZ (v_elems v) + 1 <= N /\ unused vs a ans
  | Resize a num ans => exists v, vs a = Some v /\ 0 <= num <= N /\ unused vs a ans
  | o => may N vs o
  end.
Fixpoint rich (N : Z) (vs : views) (p : client) : Prop :=
  match p with
  | Stop => True
  | Do o k => answered o /\ may_rich N vs o /\ forall x vs', does vs o x vs' -> rich N vs' (k x)
  end.

(** What an application is told *)
Fixpoint told (vs : views) (p : client) (l : list out) : Prop :=
  match p, l with
  | Stop, [] => True
  | Do o k, x :: l' => exists vs', does vs o x vs' /\ told vs' (k x) l'
  | _, _ => False
  end.

Definition none : views := fun _ => None.
