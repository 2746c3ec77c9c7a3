(** What saving and restoring configuration spaces promises. *)
From Coq Require Import ZArith List Bool.
From Verif Require Import Base Datum CodecModel CodecSpec ParamModel ParamSpec ContextModel ExprModel ExprSpec RngModel RngSpec TreeCodecSpec TreeSpaceSpec TreeConfModel RestoreSpec TunerCodecSpec DistModel DistCodecModel DistCodecSpec SpaceCodecModel SpaceCodecSpec SpaceModel SpaceSpec ConfCodecModel.
Import ListNotations.
Open Scope Z_scope.

(** The expressions that are conditions, in order *)
Definition conditions_of (conds : list (option expr)) : list expr :=
  flat_map (fun c => match c with Some e => [e] | None => [] end) conds.

Section Saved.
  Variables (jen : list Z -> Z) (heap : Z -> param) (pud : Z -> option (list Z)).
  Variables (types : list gtype) (flog : Z -> Z) (dheap : Z -> cdist) (dimension : Z -> nat).
  (** ** The bytes *)
  (** every condition after the index of its parameter *)
  Inductive wire_conditions : Z -> list (option expr) -> list Z -> Prop :=
  | wc_nil i : wire_conditions i [] []
  | wc_none i l bs : wire_conditions (i + 1) l bs -> wire_conditions i (None :: l) bs
  | wc_some i e l k eb bs : leb128 i k -> wire_expr e eb -> wire_conditions (i + 1) l bs ->
      wire_conditions i (Some e :: l) (k ++ eb ++ bs).
  (** every distribution followed by the number of its parameters and their indexes *)
  Definition wire_wrapper (w : dwrapper) (bs : list Z) : Prop :=
    exists db ln ib, wire_dist (dheap (dw_dist w)) db /\ leb128 (lenZ (dw_indexes w)) ln /\
      wire_all (fun i => leb128 (Z.of_nat i)) (dw_indexes w) ib /\ bs = db ++ ln ++ ib.
  Definition wire_conf_space (le : bool) (g : rng) (ty : gtype) (ud : option (list Z)) (s : space) (bs : list Z) : Prop :=
    exists lh nb l1 l2 l3 l4 gb pb cb db fb ub,
      leb128 (s_self s) lh /\ wire_string (c_name (s_ctx s)) nb /\
      leb128 (lenZ (s_params s)) l1 /\ leb128 (lenZ (conditions_of (s_conds s))) l2 /\
      leb128 (lenZ (s_dists s)) l3 /\ leb128 (lenZ (s_forbidden s)) l4 /\
      wire_rng le ty g gb /\ wire_all (wire_parameter heap pud) (s_params s) pb /\ wire_conditions 0 (s_conds s) cb /\
      wire_all wire_wrapper (s_dists s) db /\ wire_all wire_expr (s_forbidden s) fb /\ wire_blob (ud_bytes ud) ub /\
      bs = (4 :: lh) ++ nb ++ l1 ++ l2 ++ l3 ++ l4 ++ gb ++ pb ++ cb ++ db ++ fb ++ ub.

  (** ** What can be saved: addresses and sizes that a 64 bit machine can have, the objects
      made by the constructors *)
  Definition storable_wrapper (w : dwrapper) : Prop :=
    made flog (dheap (dw_dist w)) /\ DistCodecSpec.storable (dheap (dw_dist w)) /\
    o_id (dobj_of (dheap (dw_dist w))) = dw_dist w /\
    length (c_types (component_of (dheap (dw_dist w)))) = dimension (dw_dist w).
  Definition storable_conf (g : rng) (ty : gtype) (ud : option (list Z)) (s : space) : Prop :=
    in_unsigned 64 (s_self s) /\ lenZ (ud_bytes ud) < 2 ^ 64 /\ ok_name (c_name (s_ctx s)) /\
    Forall (storable_parameter jen heap pud) (s_params s) /\
    Forall ExprSpec.storable (conditions_of (s_conds s)) /\ Forall ExprSpec.storable (s_forbidden s) /\ lenZ (s_forbidden s) < 2 ^ 32 /\
    Forall storable_wrapper (s_dists s) /\ lenZ (s_dists s) < 2 ^ 32 /\ table types /\ of_table types g ty /\ storable_rng g /\ ~ In (g_id g) (s_params s).
  (** the block of memory that reading asks for *)
  Definition block (s : space) : Z :=
    16 * lenZ (s_params s) + 16 * lenZ (conditions_of (s_conds s)) + 16 * lenZ (s_dists s) + 8 * lenZ (s_forbidden s).
  Definition dists_of (s : space) : list cdist := map (fun w => dheap (dw_dist w)) (s_dists s).
  (** every object saved has a handle of its own *)
  Definition name_of_expr (e : expr) : Z := o_id (xobj_of e).
  Definition all_handles (g : rng) (s : space) : list Z :=
    g_id g :: s_params s ++ map name_of_expr (conditions_of (s_conds s)) ++ map dw_dist (s_dists s) ++ map name_of_expr (s_forbidden s).
  Definition own (g : rng) (s : space) : Prop := NoDup (all_handles g s).
  (** nothing has user data *)
  Definition plain (g : rng) (ud : option (list Z)) (s : space) : Prop :=
    ud_bytes ud = [] /\ ud_bytes (g_ud g) = [] /\ SpaceCodecSpec.no_data pud (s_params s) /\
    Forall no_user_data (conditions_of (s_conds s)) /\ Forall DistCodecSpec.no_data (dists_of s) /\ Forall no_user_data (s_forbidden s).

  (** ** What is restored *)
  (** the distributions, at new addresses *)
  Definition dists_back (mem : Z -> bool) (did : nat -> Z) (ds rs : list cdist) : Prop :=
    length rs = length ds /\
    forall i d, nth_error ds i = Some d -> exists d', outcome mem d (Ok d') /\
      nth_error rs i = Some (set_dobj d' (mkObj (did i) (restored_ud (o_ud (dobj_of d))))).
  Definition rng_back (g : rng) : rng := mkRng (g_id g) (g_type g) (g_state g) (restored_ud (g_ud g)).
  (** the space [id]: its name; the parameters, conditions and clauses in order, with [f h]
      for the parameter [h]; the distributions in order, of the same parameters *)
  Definition rebuilt (pid did : nat -> Z) (f : Z -> Z) (s : space) (id : Z) (s' : space) : Prop :=
    s_self s' = id /\ c_name (s_ctx s') = c_name (s_ctx s) /\
    s_params s' = map pid (seq 0 (length (s_params s))) /\
    s_conds s' = map (option_map (restored f)) (s_conds s) /\
    map sampled_by (s_dists s') = combine (map did (seq 0 (length (s_dists s)))) (map dw_indexes (s_dists s)) /\
    s_forbidden s' = map (restored f) (s_forbidden s).

  (** The clauses are tested once more, on the default values [initial] with the conditions
      applied: one that is true of them, or has no value there, keeps the space from coming
      back. *)
  Inductive clauses_outcome (s : space) (initial : list datum) : res unit -> Prop :=
  | co_none : s_forbidden s = [] -> clauses_outcome s initial (Ok tt)
  | co_fine vs : solves heap (s_params s) (s_conds s) everything initial vs ->
      Forall (fails heap (s_params s) vs) (s_forbidden s) -> clauses_outcome s initial (Ok tt)
  | co_true vs l1 e l2 : solves heap (s_params s) (s_conds s) everything initial vs -> s_forbidden s = l1 ++ e :: l2 ->
      Forall (fails heap (s_params s) vs) l1 -> holds heap (s_params s) vs e -> clauses_outcome s initial (Err ERR_INVALID_CONFIGURATION)
  | co_stuck vs l1 e l2 r : solves heap (s_params s) (s_conds s) everything initial vs -> s_forbidden s = l1 ++ e :: l2 ->
      Forall (fails heap (s_params s) vs) l1 -> stuck heap (s_params s) vs e r -> clauses_outcome s initial r
  | co_unsettled r : s_forbidden s <> [] -> unsettled heap (s_params s) (s_conds s) everything initial r -> clauses_outcome s initial r.
End Saved.
(** the defaults of the parameters read *)
Definition new_defaults (ps : list pobj) : list datum := map (fun q => p_default (po_param q)) ps.
(** A reader that ends with this undefined behaviour *)
Definition breaks {A} (de : rstate -> res (A * rstate)) (u : ub) (bs : list Z) : Prop :=
  forall tl n, lenZ bs <= n <= lenZ (bs ++ tl) -> n < 2 ^ 64 -> de (mkR (bs ++ tl) n) = UB u.
