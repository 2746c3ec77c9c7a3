(** What tree spaces promise. *)
From Coq Require Import ZArith List Bool.
From Verif Require Import Base Datum CodecModel CodecSpec ParamSpec FloatModel TreeModel TreeSpec TreeCodecSpec RngModel RngSpec TreeSpaceModel.
Import ListNotations.
Open Scope Z_scope.

Section Space.
  Variable S : Type.
  Notation world := (heap * S)%type.

  (** ** The contract of the callback get_child: asked for a child that is missing, it leaves
      the nodes that exist as they are, may make new ones, and answers with an error or with
      a new node. *)
  Definition keeps_nodes (h h' : heap) : Prop := forall x, alive h x -> seen h' x = seen h x.
  Definition behaves (v : tvector S) : Prop :=
    forall w t i vw, reached (fst w) -> seen (fst w) t = Some vw -> nth_error (v_children vw) i = Some None ->
    match tv_child S v w t i with
    | (r, w') => reached (fst w') /\ keeps_nodes (fst w) (fst w') /\
        match r with
        | Ok (Some c) => alive (fst w') c /\ ~ alive (fst w) c
        | Ok None => True
        | Err _ => True
        | UB _ => False
        end
    end.

  (** A callback that never refuses *)
  Definition generous (v : tvector S) : Prop :=
    forall w t i vw, reached (fst w) -> seen (fst w) t = Some vw -> nth_error (v_children vw) i = Some None ->
    exists c w', tv_child S v w t i = (Ok (Some c), w') /\ is_root (fst w') c.

  (** ** Following a position in a dynamic space: the children that exist are taken, each
      child that is missing is asked for once, in order, and attached. *)
  Inductive explores (v : tvector S) : world -> nat -> list nat -> res nat -> world -> Prop :=
  | ex_arrived w t : explores v w t [] (Ok t) w
  | ex_exists w t vw i c l r w' :
      seen (fst w) t = Some vw -> nth_error (v_children vw) i = Some (Some c) ->
      explores v w c l r w' -> explores v w t (i :: l) r w'
  | ex_beyond w t vw i l :
      seen (fst w) t = Some vw -> (v_arity vw <= i)%nat -> explores v w t (i :: l) (Err ERR_OUT_OF_BOUNDS) w
  | ex_made w t vw i c l r w1 h2 w' :
      seen (fst w) t = Some vw -> nth_error (v_children vw) i = Some None ->
      tv_child S v w t i = (Ok (Some c), w1) -> outcome (fst w1) (OSetChild t i c) (Ok h2) ->
      explores v (h2, snd w1) c l r w' -> explores v w t (i :: l) r w'
  | ex_owned w t vw i c u p l w1 :
      seen (fst w) t = Some vw -> nth_error (v_children vw) i = Some None ->
      tv_child S v w t i = (Ok (Some c), w1) -> seen (fst w1) c = Some u -> v_parent u = Some p ->
      explores v w t (i :: l) (Err ERR_INVALID_TREE) w1
  | ex_nothing w t vw i l w1 :
      seen (fst w) t = Some vw -> nth_error (v_children vw) i = Some None ->
      tv_child S v w t i = (Ok None, w1) -> explores v w t (i :: l) (Err ERR_INVALID_OBJECT) w1
  | ex_failed w t vw i e l w1 :
      seen (fst w) t = Some vw -> nth_error (v_children vw) i = Some None ->
      tv_child S v w t i = (Err e, w1) -> explores v w t (i :: l) (Err e) w1.

  (** The tree only grows: what a node is does not change, except that missing children may
      have appeared *)
  Definition same_or_new (a b : option nat) : Prop := a = None \/ b = a.
  Definition grown (h h' : heap) : Prop :=
    forall x vw, seen h x = Some vw -> exists l, seen h' x = Some (v_with_children vw l) /\ Forall2 same_or_new (v_children vw) l.

  (** ** Serialisation. The type of tree spaces and the handle, 0 (static) or 1 (dynamic), the
      name, the generator, the tree, for a dynamic space what the application saves, and the
      user data. *)
  Definition is_dynamic (k : kind S) : bool := match k with KStatic _ => false | KDynamic _ _ _ => true end.
  Definition state_bytes (k : kind S) (sb : list Z) : Prop :=
    match k with
    | KStatic _ => sb = []
    | KDynamic _ v st => wire_blob (match tv_save S v with Some f => f st | None => [] end) sb
    end.
  Definition wire_space (le : bool) (ty : gtype) (h : heap) (sp : tspace S) (head sb ub : list Z) : Prop :=
    exists lh nm gb tb,
      leb128 (ts_id S sp) lh /\ wire_string (ts_name S sp) nm /\ wire_rng le ty (ts_rng S sp) gb /\ wire_tree h (ts_tree S sp) tb /\
      head = (16 :: lh) ++ [if is_dynamic (ts_kind S sp) then 1 else 0] ++ nm ++ gb ++ tb /\
      state_bytes (ts_kind S sp) sb /\ wire_blob (ud_bytes (ts_ud S sp)) ub.
  (** The generator as read on a host of byte order [le'] that knows it as type [t'] *)
  Definition restored_rng (le le' : bool) (ty' : gtype) (t' : nat) (g : rng) : rng :=
    mkRng (g_id g) t' (restored_state le le' ty' (g_state g)) (restored_ud (g_ud g)).
  Definition storable_space (sp : tspace S) : Prop :=
    in_unsigned 64 (ts_id S sp) /\ ok_name (ts_name S sp) /\ storable_rng (ts_rng S sp) /\
    lenZ (ud_bytes (ts_ud S sp)) < 2 ^ 64 /\
    match ts_kind S sp with
    | KDynamic _ v st => match tv_save S v with Some f => lenZ (f st) < 2 ^ 64 | None => True end
    | KStatic _ => True
    end.
End Space.
