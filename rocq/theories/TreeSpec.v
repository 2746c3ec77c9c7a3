(** What trees promise. *)
From Coq Require Import ZArith List Bool.
From Verif Require Import Base Datum CodecModel FloatModel FloatSpec IntervalSpec DistModel DistSpec CmpSpec TreeModel.
Import ListNotations.
Open Scope Z_scope.

(** ** What an application sees of a node: [get_arity], [get_value], [get_weight],
    [get_bias], [get_children], [get_parent] and the user data *)
Record view := mkView {
  v_arity : nat; v_value : datum; v_weight : Z; v_bias : Z;
  v_children : list (option nat); v_parent : option (nat * nat); v_ud : option (list Z) }.
Definition node_at (h : heap) (id : nat) : option node :=
  match nth_error h id with Some (Some n) => Some n | _ => None end.
Definition view_of (n : node) : view :=
  mkView (n_arity n) (n_value n) (nth (n_arity n) (n_weights n) 0) (n_bias n) (n_children n)
         (match n_parent n with Some p => Some (p, n_index n) | None => None end) (n_ud n).
Definition seen (h : heap) (id : nat) : option view := option_map view_of (node_at h id).
Definition alive (h : heap) (id : nat) : Prop := seen h id <> None.

(** Same number: equal as numbers, or both NaN. (Zeros of both signs are the same number.) *)
Definition same_num (a b : Z) : Prop := fkey a = fkey b.

(** ** The tree below a node *)
Inductive ttree : Type := TNode (value : datum) (own bias : Z) (kids : list (option ttree)) (ud : option (list Z)).
Definition t_bias (T : ttree) : Z := match T with TNode _ _ b _ _ => b end.
Definition t_own (T : ttree) : Z := match T with TNode _ w _ _ _ => w end.
Definition t_kids (T : ttree) : list (option ttree) := match T with TNode _ _ _ k _ => k end.
Inductive represents (h : heap) : nat -> ttree -> Prop :=
| rep id v kids :
    seen h id = Some v ->
    rep_kids h (v_children v) kids ->
    represents h id (TNode (v_value v) (v_weight v) (v_bias v) kids (v_ud v))
with rep_kids (h : heap) : list (option nat) -> list (option ttree) -> Prop :=
| rep_nil : rep_kids h [] []
| rep_none l kids : rep_kids h l kids -> rep_kids h (None :: l) (None :: kids)
| rep_some c T l kids : represents h c T -> rep_kids h l kids -> rep_kids h (Some c :: l) (Some T :: kids).

(** The weight of a tree: the sum of the weights of its children, each multiplied by the
    bias of the child, missing children counting for 1, and then of its own weight. *)
Fixpoint weight_of (T : ttree) : Z :=
  match T with
  | TNode _ own _ kids _ =>
      fadd (fold_left fadd
              (map (fun k => match k with None => ONE | Some c => fmul (weight_of c) (t_bias c) end) kids) 0) own
  end.
(** What a node chooses among: its children, then itself *)
Definition choices (T : ttree) : list Z :=
  map (fun k => match k with None => ONE | Some c => fmul (weight_of c) (t_bias c) end) (t_kids T) ++ [t_own T].

(** The data that sampling uses agrees with the tree below the node *)
Definition sampled_as (n : node) (T : ttree) : Prop :=
  Forall2 same_num (n_weights n) (choices T) /\
  same_num (n_sum n) (weight_of T) /\
  (klt (fkey 0) (fkey (n_sum n)) -> is_roulette (n_weights n) (n_areas n)).

(** ** Ancestors *)
Inductive under (h : heap) (top : nat) : nat -> Prop :=
| under_self : under h top top
| under_step id v p i : seen h id = Some v -> v_parent v = Some (p, i) -> under h top p -> under h top id.
(** [d] steps up from [id] to a node without a parent *)
Inductive rooted (h : heap) : nat -> nat -> Prop :=
| rooted_top id v : seen h id = Some v -> v_parent v = None -> rooted h id 0
| rooted_step id v p i d : seen h id = Some v -> v_parent v = Some (p, i) -> rooted h p d -> rooted h id (S d).

(** ** Forests: parents and children agree, and every node is below a root *)
Definition forest (h : heap) : Prop :=
  forall id v, seen h id = Some v ->
    length (v_children v) = v_arity v /\
    (forall i c, nth_error (v_children v) i = Some (Some c) -> exists u, seen h c = Some u /\ v_parent u = Some (id, i)) /\
    (forall p i, v_parent v = Some (p, i) -> exists u, seen h p = Some u /\ nth_error (v_children u) i = Some (Some id)) /\
    (exists d, rooted h id d).

(** ** What operations are allowed to assume and must do *)
(** Nodes that are destroyed have no parent; no node is attached below itself; weights,
    biases and values are machine values *)
Definition allowed (h : heap) (o : op) : Prop :=
  match o with
  | OCreate arity value => 0 <= arity <= 2 ^ 40 /\ wf_datum value /\
      match d_val value with VString (Some s) => lenZ s <= 2 ^ 40 | _ => True end
  | OSetChild t _ c => alive h t /\ alive h c /\ ~ under h c t
  | OSetWeight t w => alive h t /\ 0 <= w < 2 ^ 64
  | OSetBias t b => alive h t /\ 0 <= b < 2 ^ 64
  | OSetUserData t _ => alive h t
  | ODestroy t => exists v, seen h t = Some v /\ v_parent v = None
  end.
Definition changed (f : nat -> option view) (id : nat) (v : option view) : nat -> option view :=
  fun x => if Nat.eqb x id then v else f x.
Definition v_with_parent (v : view) p := mkView (v_arity v) (v_value v) (v_weight v) (v_bias v) (v_children v) p (v_ud v).
Definition v_with_children (v : view) l := mkView (v_arity v) (v_value v) (v_weight v) (v_bias v) l (v_parent v) (v_ud v).
Definition v_with_weight (v : view) w := mkView (v_arity v) (v_value v) w (v_bias v) (v_children v) (v_parent v) (v_ud v).
Definition v_with_bias (v : view) b := mkView (v_arity v) (v_value v) (v_weight v) b (v_children v) (v_parent v) (v_ud v).
Definition v_with_ud (v : view) u := mkView (v_arity v) (v_value v) (v_weight v) (v_bias v) (v_children v) (v_parent v) u.
Definition negative (w : Z) : Prop := klt (fkey w) (fkey 0).
(** A number replaces another unless they are equal *)
Definition replaced (old new got : Z) : Prop :=
  (keq (fkey old) (fkey new) /\ got = old) \/ (~ keq (fkey old) (fkey new) /\ got = new).
(** A list in which cell [i] was replaced *)
Definition put_at {A : Type} (l : list A) (i : nat) (x : A) (l' : list A) : Prop :=
  length l' = length l /\ nth_error l' i = Some x /\ forall j, j <> i -> nth_error l' j = nth_error l j.

(** Outcome of an operation: an error code and nothing happens, or a new state *)
Inductive outcome (h : heap) : op -> res heap -> Prop :=
| out_create arity value h' :
    match d_val value with
    | VNone | VInt _ | VFloat _ | VBool _ | VString (Some _) => True | _ => False end ->
    length h' = S (length h) ->
    (forall x, seen h' x = changed (seen h) (length h)
       (Some (mkView (Z.to_nat arity) (mkDatum (d_val value) FLAG_DEFAULT) ONE ONE (repeat None (Z.to_nat arity)) None None)) x) ->
    outcome h (OCreate arity value) (Ok h')
| out_bad_value arity value :
    match d_val value with
    | VNone | VInt _ | VFloat _ | VBool _ | VString (Some _) => False | _ => True end ->
    outcome h (OCreate arity value) (Err ERR_INVALID_VALUE)
| out_child t i c v u l h' :
    seen h t = Some v -> seen h c = Some u ->
    nth_error (v_children v) i = Some None -> v_parent u = None ->
    put_at (v_children v) i (Some c) l ->
    (forall x, seen h' x = changed (changed (seen h) t (Some (v_with_children v l))) c (Some (v_with_parent u (Some (t, i)))) x) ->
    length h' = length h ->
    outcome h (OSetChild t i c) (Ok h')
| out_child_bounds t i c v :
    seen h t = Some v -> (v_arity v <= i)%nat -> outcome h (OSetChild t i c) (Err ERR_OUT_OF_BOUNDS)
| out_child_taken t i c v d :
    seen h t = Some v -> nth_error (v_children v) i = Some (Some d) -> outcome h (OSetChild t i c) (Err ERR_INVALID_VALUE)
| out_child_parent t i c v u p :
    seen h t = Some v -> nth_error (v_children v) i = Some None ->
    seen h c = Some u -> v_parent u = Some p -> outcome h (OSetChild t i c) (Err ERR_INVALID_TREE)
| out_weight t w v w' h' :
    seen h t = Some v -> ~ negative w -> replaced (v_weight v) w w' ->
    (forall x, seen h' x = changed (seen h) t (Some (v_with_weight v w')) x) ->
    length h' = length h ->
    outcome h (OSetWeight t w) (Ok h')
| out_weight_negative t w : negative w -> outcome h (OSetWeight t w) (Err ERR_INVALID_VALUE)
| out_bias t b v b' h' :
    seen h t = Some v -> ~ negative b -> replaced (v_bias v) b b' ->
    (forall x, seen h' x = changed (seen h) t (Some (v_with_bias v b')) x) ->
    length h' = length h ->
    outcome h (OSetBias t b) (Ok h')
| out_bias_negative t b : negative b -> outcome h (OSetBias t b) (Err ERR_INVALID_VALUE)
| out_user_data t ud v h' :
    seen h t = Some v -> (forall x, seen h' x = changed (seen h) t (Some (v_with_ud v ud)) x) ->
    length h' = length h ->
    outcome h (OSetUserData t ud) (Ok h')
| out_destroy t v h' :
    seen h t = Some v ->
    seen h' t = None ->
    (forall x u i, seen h x = Some u -> v_parent u = Some (t, i) -> seen h' x = Some (v_with_parent u None)) ->
    (forall x, x <> t -> (forall u i, seen h x = Some u -> v_parent u <> Some (t, i)) -> seen h' x = seen h x) ->
    length h' = length h ->
    outcome h (ODestroy t) (Ok h').

(** States reached by histories of allowed operations *)
Inductive reached : heap -> Prop :=
| reached_none : reached []
| reached_ok h o h' : reached h -> allowed h o -> step h o = Ok h' -> reached h'.

(** ** Positions *)
(** The node that a position designates from a node *)
Inductive designates (h : heap) : nat -> list nat -> nat -> Prop :=
| des_here t : alive h t -> designates h t [] t
| des_down t v i c l d : seen h t = Some v -> nth_error (v_children v) i = Some (Some c) ->
    designates h c l d -> designates h t (i :: l) d.
(** The values met on the way, from the start *)
Inductive values_along (h : heap) : nat -> list nat -> list datum -> Prop :=
| along_here t v : seen h t = Some v -> values_along h t [] [v_value v]
| along_down t v i c l ds : seen h t = Some v -> nth_error (v_children v) i = Some (Some c) ->
    values_along h c l ds -> values_along h t (i :: l) (v_value v :: ds).
(** A position leaves the tree when all its steps but the last are children, and the last
    step is to a child that could exist but does not *)
Definition dangling (h : heap) (t : nat) (l : list nat) : Prop :=
  exists l' i d v, l = l' ++ [i] /\ designates h t l' d /\ seen h d = Some v /\ nth_error (v_children v) i = Some None.
(** A position breaks off when some of its steps leave the tree by a missing child, and
    strays when some step is beyond the children that a node could have *)
Definition breaks (h : heap) (t : nat) (l : list nat) : Prop := exists l1 l2, l = l1 ++ l2 /\ dangling h t l1.
Definition strays (h : heap) (t : nat) (l : list nat) : Prop :=
  exists l1 i l2 d v, l = l1 ++ i :: l2 /\ designates h t l1 d /\ seen h d = Some v /\ (v_arity v <= i)%nat.
(** Answers given in an array: no array and the number of elements only, or an array of some
    size, large enough, padded *)
Definition answered {A : Type} (pad : A) (l : list A) (array : option nat) (count : bool) (r : res (option (list A) * nat)) : Prop :=
  match array with
  | None => if count then r = Ok (None, length l) else r = Err ERR_INVALID_VALUE
  | Some size =>
      ((size < length l)%nat /\ r = Err ERR_INVALID_VALUE) \/
      ((length l <= size)%nat /\ r = Ok (Some (l ++ repeat pad (size - length l)), length l))
  end.
Definition is_root (h : heap) (t : nat) : Prop := exists v, seen h t = Some v /\ v_parent v = None.
(** All the trees below have weights that can be sampled *)
Fixpoint samplable (T : ttree) : Prop :=
  match T with
  | TNode v own b kids ud =>
      let w := weight_of (TNode v own b kids ud) in
      finite w /\ klt (fkey 0) (fkey w) /\ finite (fdiv ONE w) /\
      (fix all (l : list (option ttree)) : Prop :=
         match l with [] => True | None :: l' => all l' | Some c :: l' => samplable c /\ all l' end) kids
  end.
(** ** Any arity *)
Definition node_value (v : value) : Prop :=
  match v with VNone | VInt _ | VFloat _ | VBool _ | VString (Some _) => True | _ => False end.
Definition string_bytes (v : value) : Z := match v with VString (Some s) => lenZ s + 1 | _ => 0 end.
