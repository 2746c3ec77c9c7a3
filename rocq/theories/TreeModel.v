(** Trees: src/tree.c, src/tree_internal.h, src/tree_deserialize.h, and the sampling of
    static tree spaces: src/tree_space.c.
    The nodes live in a heap; a handle is the place of a node in it. Places are not reused.
    Using the handle of a node that was destroyed (or never created) is [UB UBBounds].
    NULL arguments, reference counts and the error stack are not modelled here. *)
From Coq Require Import ZArith List Bool Arith.
From Verif Require Import Base Datum CodecModel FloatModel IntervalModel DistModel.
Import ListNotations.
Open Scope Z_scope.

(** tree_internal.h 17-29, [_ccs_tree_data_s], with the bytes that the serialisation
    callback of the object gives for its user data *)
Record node := mkNode {
  n_arity : nat;
  n_weights : list Z;            (* arity + 1 cells *)
  n_areas : list Z;              (* arity + 2 cells *)
  n_children : list (option nat);(* arity cells *)
  n_bias : Z;
  n_value : datum;
  n_sum : Z;
  n_parent : option nat;
  n_index : nat;
  n_ud : option (list Z) }.
Definition heap := list (option node).
Definition read (h : heap) (id : nat) : res node :=
  match nth_error h id with Some (Some n) => Ok n | _ => UB UBBounds end.
Fixpoint set_nth {A : Type} (l : list A) (i : nat) (x : A) : list A :=
  match l, i with
  | [], _ => []
  | _ :: l', O => x :: l'
  | y :: l', S i' => y :: set_nth l' i' x
  end.
Definition write (h : heap) (id : nat) (n : node) : heap := set_nth h id (Some n).

(** ** Creation: tree.c 140-197. [calloc] refuses blocks of more than [MAX_BLOCK] bytes. The
    size of the block is computed modulo 2^64; when that makes it too small, initialising
    the weights writes out of it. *)
Definition MAX_BLOCK : Z := 2 ^ 56.
(** sizeof(struct _ccs_tree_s) + sizeof(_ccs_tree_data_t) *)
Definition TREE_BYTES : Z := 136.
Definition new_node (arity : nat) (value : datum) : node :=
  let weights := repeat ONE (S arity) in
  let sum := f_of_int (Z.of_nat (S arity)) in
  mkNode arity weights (normalize_areas weights (fdiv ONE sum)) (repeat None arity) ONE
         (mkDatum (d_val value) FLAG_DEFAULT) sum None 0 None.
Definition create_tree (h : heap) (arity : Z) (value : datum) : res (nat * heap) :=
  do _ <- refute (TYPE_STRING <? type_of (d_val value)) ERR_INVALID_VALUE;
  do _ <- refute (INT64_MAX - 1 <? arity) ERR_INVALID_VALUE;
  do strs <- match d_val value with
             | VString None => Err ERR_INVALID_VALUE
             | VString (Some s) => Ok (lenZ s + 1)
             | _ => Ok 0
             end;
  let bytes := TREE_BYTES + (arity + 1) * 8 + (arity + 2) * 8 + arity * 8 + strs in
  do _ <- refute (MAX_BLOCK <? wrap 64 bytes) ERR_OUT_OF_MEMORY;
  if wrap 64 bytes <? bytes then UB UBBounds else
  Ok (length h, h ++ [Some (new_node (Z.to_nat arity) value)]).

(** ** Weights. 217-244 [_ccs_tree_update_weight]: the loop goes up to the root. [fuel] is one
    more than the number of nodes: a longer walk passes through a node twice and, as the walk
    does not change parents, never ends. *)
Definition with_weights (n : node) (weights areas : list Z) (sum : Z) : node :=
  mkNode (n_arity n) weights areas (n_children n) (n_bias n) (n_value n) sum (n_parent n) (n_index n) (n_ud n).
Definition sum_of (weights : list Z) : Z := fold_left fadd weights 0.
Fixpoint update_loop (fuel : nat) (h : heap) (t : nat) (index : nat) (weight : Z) : res heap :=
  match fuel with
  | O => UB UBDiverge
  | S fuel' =>
      do n <- read h t;
      let weights := set_nth (n_weights n) index weight in
      let sum := sum_of weights in
      let areas := if flt 0 sum then normalize_areas weights (fdiv ONE sum) else n_areas n in
      let h := write h t (with_weights n weights areas sum) in
      match n_parent n with
      | Some p => update_loop fuel' h p (n_index n) (fmul sum (n_bias n))
      | None => Ok h
      end
  end.
Definition update_weight (h : heap) (t : nat) (index : nat) (weight : Z) : res heap :=
  do n <- read h t;
  do _ <- refute (n_arity n <? index)%nat ERR_OUT_OF_BOUNDS;
  if feq weight (nth index (n_weights n) 0) then Ok h
  else update_loop (S (length h)) h t index weight.
(** 246-259 [_ccs_tree_update_bias] *)
Definition with_bias (n : node) (bias : Z) : node :=
  mkNode (n_arity n) (n_weights n) (n_areas n) (n_children n) bias (n_value n) (n_sum n) (n_parent n) (n_index n) (n_ud n).
Definition update_bias (h : heap) (t : nat) (bias : Z) : res heap :=
  do n <- read h t;
  if feq bias (n_bias n) then Ok h else
  let h := write h t (with_bias n bias) in
  match n_parent n with
  | None => Ok h
  | Some p => update_weight h p (n_index n) (fmul (n_sum n) bias)
  end.
(** 340-356 [ccs_tree_set_weight], 367-383 [ccs_tree_set_bias]. The error paths are not
    modelled: the updates do not fail, the index being in range. *)
Definition set_weight (h : heap) (t : nat) (weight : Z) : res heap :=
  do n <- read h t;
  do _ <- refute (flt weight 0) ERR_INVALID_VALUE;
  update_weight h t (n_arity n) weight.
Definition set_bias (h : heap) (t : nat) (bias : Z) : res heap :=
  do n <- read h t;
  do _ <- refute (flt bias 0) ERR_INVALID_VALUE;
  update_bias h t bias.

(** ** Links. 261-292 [ccs_tree_set_child]; same remark about the error path *)
Definition with_parent (n : node) (parent : option nat) (index : nat) : node :=
  mkNode (n_arity n) (n_weights n) (n_areas n) (n_children n) (n_bias n) (n_value n) (n_sum n) parent index (n_ud n).
Definition with_children (n : node) (children : list (option nat)) : node :=
  mkNode (n_arity n) (n_weights n) (n_areas n) children (n_bias n) (n_value n) (n_sum n) (n_parent n) (n_index n) (n_ud n).
Definition is_some {A : Type} (o : option A) : bool := match o with Some _ => true | None => false end.
Definition set_child (h : heap) (t : nat) (index : nat) (c : nat) : res heap :=
  do n <- read h t;
  do m <- read h c;
  do _ <- refute (n_arity n <=? index)%nat ERR_OUT_OF_BOUNDS;
  do _ <- refute (is_some (nth index (n_children n) None)) ERR_INVALID_VALUE;
  do _ <- refute (is_some (n_parent m) || negb (n_index m =? 0)%nat) ERR_INVALID_TREE;
  let h := write h c (with_parent m (Some t) index) in
  do n <- read h t;
  let h := write h t (with_children n (set_nth (n_children n) index (Some c))) in
  update_weight h t index (fmul (n_sum m) (n_bias m)).
(** 4-16 [_ccs_tree_del], run when the last reference to a node is released. A parent holds
    a reference on its children, so this only happens to a node without a parent. The
    children lose the reference; whether they go away too is up to the other holders. *)
Fixpoint detach (h : heap) (l : list (option nat)) : res heap :=
  match l with
  | [] => Ok h
  | None :: l' => detach h l'
  | Some c :: l' => do m <- read h c; detach (write h c (with_parent m None 0)) l'
  end.
Definition destroy (h : heap) (t : nat) : res heap :=
  do n <- read h t;
  do h <- detach h (n_children n);
  Ok (set_nth h t None).
(** cconfigspace.c 113-127 [ccs_object_set_user_data] *)
Definition set_user_data (h : heap) (t : nat) (ud : option (list Z)) : res heap :=
  do n <- read h t;
  Ok (write h t (mkNode (n_arity n) (n_weights n) (n_areas n) (n_children n) (n_bias n) (n_value n) (n_sum n)
                        (n_parent n) (n_index n) ud)).

(** ** Questions *)
(** 199-215 *)
Definition get_value (h : heap) (t : nat) : res datum := do n <- read h t; Ok (n_value n).
Definition get_arity (h : heap) (t : nat) : res nat := do n <- read h t; Ok (n_arity n).
(** 294-303 [ccs_tree_get_child] *)
Definition get_child (h : heap) (t : nat) (index : nat) : res (option nat) :=
  do n <- read h t;
  do _ <- refute (n_arity n <=? index)%nat ERR_OUT_OF_BOUNDS;
  Ok (nth index (n_children n) None).
(** Arrays given to be filled: no array, or one of a given size. Filling pads it. *)
Definition fill {A : Type} (pad : A) (size : nat) (l : list A) : res (list A) :=
  do _ <- refute (size <? length l)%nat ERR_INVALID_VALUE;
  Ok (l ++ repeat pad (size - length l)).
(** 305-328 [ccs_tree_get_children]; the second result is what [num_children_ret] gets. The
    call is refused when it asks for neither. *)
Definition get_children (h : heap) (t : nat) (array : option nat) (count : bool) : res (option (list (option nat)) * nat) :=
  do n <- read h t;
  do _ <- refute (negb (is_some array) && negb count) ERR_INVALID_VALUE;
  match array with
  | None => Ok (None, n_arity n)
  | Some size => do l <- fill None size (n_children n); Ok (Some l, n_arity n)
  end.
(** 330-338, 358-365, 385-393 *)
Definition get_weight (h : heap) (t : nat) : res Z := do n <- read h t; Ok (nth (n_arity n) (n_weights n) 0).
Definition get_bias (h : heap) (t : nat) : res Z := do n <- read h t; Ok (n_bias n).
Definition get_parent (h : heap) (t : nat) : res (option (nat * nat)) :=
  do n <- read h t;
  Ok (match n_parent n with Some p => Some (p, n_index n) | None => None end).
(** 405-410, 438-443: counting the parents. Same fuel as above. *)
Fixpoint depth_loop (fuel : nat) (h : heap) (parent : option nat) (depth : nat) : res nat :=
  match fuel with
  | O => UB UBDiverge
  | S fuel' =>
      match parent with
      | None => Ok depth
      | Some p => do n <- read h p; depth_loop fuel' h (n_parent n) (S depth)
      end
  end.
Definition depth_of (h : heap) (t : nat) : res nat :=
  do n <- read h t; depth_loop (S (length h)) h (n_parent n) 0.
(** 417-420, 450-453: filling an array from its end while going up. Going up from a root
    would dereference NULL. *)
Fixpoint climb {A : Type} (what : node -> A) (count : nat) (h : heap) (t : option nat) (filled : list A) : res (list A) :=
  match count with
  | O => Ok filled
  | S count' =>
      match t with
      | None => UB UBBounds
      | Some t => do n <- read h t; climb what count' h (n_parent n) (what n :: filled)
      end
  end.
(** 395-427 [ccs_tree_get_position] *)
Definition get_position (h : heap) (t : nat) (array : option nat) (count : bool) : res (option (list nat) * nat) :=
  do _ <- read h t;
  do _ <- refute (negb (is_some array) && negb count) ERR_INVALID_VALUE;
  do depth <- depth_of h t;
  match array with
  | None => Ok (None, depth)
  | Some size =>
      do _ <- refute (size <? depth)%nat ERR_INVALID_VALUE;
      do l <- climb n_index depth h (Some t) [];
      do l <- fill 0%nat size l;
      Ok (Some l, depth)
  end.
(** 429-459 [ccs_tree_get_values] *)
Definition get_values (h : heap) (t : nat) (array : option nat) (count : bool) : res (option (list datum) * nat) :=
  do _ <- read h t;
  do _ <- refute (negb (is_some array) && negb count) ERR_INVALID_VALUE;
  do depth <- depth_of h t;
  match array with
  | None => Ok (None, S depth)
  | Some size =>
      do _ <- refute (size <? S depth)%nat ERR_INVALID_VALUE;
      do l <- climb n_value (S depth) h (Some t) [];
      do l <- fill ccs_none size l;
      Ok (Some l, S depth)
  end.
(** 461-480 [ccs_tree_position_is_valid] *)
Fixpoint valid_loop (h : heap) (t : option nat) (position : list nat) : res bool :=
  match position with
  | [] => Ok true
  | i :: l =>
      match t with
      | None => Ok false
      | Some t =>
          do n <- read h t;
          if (n_arity n <=? i)%nat then Ok false else valid_loop h (nth i (n_children n) None) l
      end
  end.
Definition position_is_valid (h : heap) (t : nat) (position : list nat) : res bool :=
  do _ <- read h t; valid_loop h (Some t) position.
(** 482-504 [ccs_tree_get_values_at_position] into an array of [size] cells *)
Fixpoint values_loop (h : heap) (t : nat) (position : list nat) : res (list datum) :=
  match position with
  | [] => Ok []
  | i :: l =>
      do c <- get_child h t i;
      match c with
      | None => Err ERR_INVALID_TREE
      | Some c => do n <- read h c; do vs <- values_loop h c l; Ok (n_value n :: vs)
      end
  end.
Definition get_values_at_position (h : heap) (t : nat) (position : list nat) (size : nat) : res (list datum) :=
  do n <- read h t;
  do _ <- refute (size <? S (length position))%nat ERR_INVALID_VALUE;
  do vs <- values_loop h t position;
  fill ccs_none size (n_value n :: vs).
(** 506-522 [ccs_tree_get_node_at_position] *)
Fixpoint node_loop (h : heap) (t : nat) (position : list nat) : res nat :=
  match position with
  | [] => Ok t
  | i :: l =>
      do c <- get_child h t i;
      match c with None => Err ERR_INVALID_TREE | Some c => node_loop h c l end
  end.
Definition get_node_at_position (h : heap) (t : nat) (position : list nat) : res nat :=
  do _ <- read h t; node_loop h t position.

(** ** Sampling: tree_internal.h 31-52 [_ccs_tree_samples], tree.c 524-548. The draws of
    gsl_rng_uniform are given in order. *)
Definition tree_sample (n : node) (u : Z) : res Z :=
  do _ <- refute (feq (n_sum n) 0) ERR_INVALID_DISTRIBUTION;
  dichotomic_search (Z.of_nat (n_arity n) + 1) (n_areas n) u.
Fixpoint tree_searches (n : node) (us : list Z) : res (list Z) :=
  match us with
  | [] => Ok []
  | u :: l => do i <- dichotomic_search (Z.of_nat (n_arity n) + 1) (n_areas n) u;
              do is <- tree_searches n l; Ok (i :: is)
  end.
Definition tree_samples (h : heap) (t : nat) (us : list Z) : res (list Z) :=
  do n <- read h t;
  do _ <- refute (feq (n_sum n) 0) ERR_INVALID_DISTRIBUTION;
  tree_searches n us.
(** tree_space.c 154-173, [_ccs_tree_space_samples], one configuration (static and dynamic spaces alike): walk down,
    drawing where to go, until the node itself is drawn or the child drawn is missing. [us]
    are the draws to come; the draws that were not used are returned too. Same fuel as above;
    running out of draws is an artefact of the model. *)
Fixpoint walk (fuel : nat) (h : heap) (t : nat) (us : list Z) : res (list nat * list Z) :=
  match fuel with
  | O => UB UBDiverge
  | S fuel' =>
      do n <- read h t;
      match us with
      | [] => UB UBFuel
      | u :: us =>
          do i <- tree_sample n u;
          if i =? Z.of_nat (n_arity n) then Ok ([], us) else
          match nth (Z.to_nat i) (n_children n) None with
          | None => Ok ([Z.to_nat i], us)
          | Some c => do (l, us) <- walk fuel' h c us; Ok (Z.to_nat i :: l, us)
          end
      end
  end.

(** ** Serialisation: tree.c 27-135, tree_deserialize.h *)
Definition OBJ_TREE := 15.
Section Ser.
  Variable le : bool.
  Section Children.
    Variable ser_child : nat -> wstate -> res wstate.
    Fixpoint ser_children (l : list (option nat)) (s : wstate) : res wstate :=
      match l with
      | [] => Ok s
      | None :: l' => do s <- ser_enum CCS_FALSE s; ser_children l' s
      | Some c :: l' => do s <- ser_enum CCS_TRUE s; do s <- ser_child c s; ser_children l' s
      end.
    Variable size_child : nat -> res Z.
    Fixpoint size_children (l : list (option nat)) : res Z :=
      match l with
      | [] => Ok 0
      | None :: l' => do r <- size_children l'; Ok (size_enum CCS_FALSE + r)
      | Some c :: l' => do a <- size_child c; do r <- size_children l'; Ok (size_enum CCS_TRUE + a + r)
      end.
  End Children.
  (** The handle written is the address of the node; here its place. [fuel] bounds the depth. *)
  Fixpoint ser_tree (fuel : nat) (h : heap) (t : nat) (s : wstate) : res wstate :=
    match fuel with
    | O => UB UBDiverge
    | S fuel' =>
        do n <- read h t;
        do s <- ser_object_internal OBJ_TREE (Z.of_nat t) s;
        do s <- ser_size (Z.of_nat (n_arity n)) s;
        do s <- ser_float le (nth (n_arity n) (n_weights n) 0) s;
        do s <- ser_children (ser_tree fuel' h) (n_children n) s;
        do s <- ser_float le (n_bias n) s;
        do s <- ser_datum le (n_value n) s;
        ser_user_data (n_ud n) s
    end.
  Fixpoint size_tree (fuel : nat) (h : heap) (t : nat) : res Z :=
    match fuel with
    | O => UB UBDiverge
    | S fuel' =>
        do n <- read h t;
        do c <- size_children (size_tree fuel' h) (n_children n);
        do v <- size_datum (n_value n);
        Ok (size_object_internal OBJ_TREE (Z.of_nat t) + size_size (Z.of_nat (n_arity n)) +
            size_float (nth (n_arity n) (n_weights n) 0) + c + size_float (n_bias n) + v + size_user_data (n_ud n))
    end.

  (** tree_deserialize.h 24-163. On error the nodes built so far are released. *)
  Section Kids.
    Variable deser_child : heap -> rstate -> res (nat * heap * rstate).
    Fixpoint deser_children (count : nat) (h : heap) (s : rstate) : res (list (option nat) * heap * rstate) :=
      match count with
      | O => Ok ([], h, s)
      | S count' =>
          do (p, s) <- deser_enum s;
          do (x, s) <- (if z2b p then do (ch, s) <- deser_child h s; Ok (Some (fst ch), snd ch, s)
                        else Ok (None, h, s));
          do (y, s) <- deser_children count' (snd x) s;
          Ok (fst x :: fst y, snd y, s)
      end.
  End Kids.
  Fixpoint link_children (h : heap) (t : nat) (i : nat) (l : list (option nat)) : res heap :=
    match l with
    | [] => Ok h
    | None :: l' => link_children h t (S i) l'
    | Some c :: l' => do h <- set_child h t i c; link_children h t (S i) l'
    end.
  Fixpoint deser_tree (fuel : nat) (h : heap) (s : rstate) : res (nat * heap * rstate) :=
    match fuel with
    | O => UB UBFuel
    | S fuel' =>
        do (o, s) <- deser_object_internal s;
        do _ <- refute (negb (fst o =? OBJ_TREE)) ERR_INVALID_TYPE;
        do (arity, s) <- deser_size s;
        do (weight, s) <- deser_float le s;
        do _ <- refute (MAX_BLOCK <? arity * 8) ERR_OUT_OF_MEMORY;
        do (x, s) <- deser_children (deser_tree fuel') (Z.to_nat arity) h s;
        do (bias, s) <- deser_float le s;
        do (value, s) <- deser_datum le s;
        do (t, h) <- create_tree (snd x) arity value;
        do h <- set_weight h t weight;
        do h <- set_bias h t bias;
        do h <- link_children h t 0 (fst x);
        do (b, s) <- deser_user_data s;
        do h <- (match b with [] => Ok h | _ => set_user_data h t (Some b) end);
        Ok (t, h, s)
    end.
  Definition deserialize_tree (h : heap) (s : rstate) : res (nat * heap * rstate) :=
    deser_tree (S (length (r_mem s))) h s.
End Ser.

(** ** Histories: what an application may do with trees. An operation that fails changes
    nothing. *)
Inductive op : Type :=
| OCreate (arity : Z) (value : datum)
| OSetChild (t : nat) (index : nat) (c : nat)
| OSetWeight (t : nat) (weight : Z)
| OSetBias (t : nat) (bias : Z)
| OSetUserData (t : nat) (ud : option (list Z))
| ODestroy (t : nat).
Definition step (h : heap) (o : op) : res heap :=
  match o with
  | OCreate arity value => do (_, h) <- create_tree h arity value; Ok h
  | OSetChild t i c => set_child h t i c
  | OSetWeight t w => set_weight h t w
  | OSetBias t b => set_bias h t b
  | OSetUserData t ud => set_user_data h t ud
  | ODestroy t => destroy h t
  end.
