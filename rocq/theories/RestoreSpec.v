(** What configurations, features and evaluations promise. *)
From Coq Require Import ZArith List Bool.
From Verif Require Import Base Datum CodecModel CodecSpec CmpModel CmpSpec ParamModel ParamSpec ContextModel ContextSpec EvalModel TreeModel TreeCodecSpec RngModel TreeSpaceModel TreeSpaceSpec TreeConfModel TreeConfSpec RestoreModel.
Import ListNotations.
Open Scope Z_scope.

(** ** Order *)
(** The signs of [cmp] tell [lt], its converse and [same] *)
Definition ranks {A} (D : A -> A -> Prop) (cmp : A -> A -> res Z) (lt same : A -> A -> Prop) : Prop :=
  forall a b, D a b -> exists c, cmp a b = Ok c /\ (c < 0 <-> lt a b) /\ (c > 0 <-> lt b a) /\ (c = 0 <-> same a b).
(** A total order of classes *)
Record classes {A} (P : A -> Prop) (lt same : A -> A -> Prop) : Prop := mkClasses {
  cl_refl : forall a, same a a;
  cl_sym : forall a b, same a b -> same b a;
  cl_same : forall a b c, same a b -> same b c -> same a c;
  cl_irrefl : forall a b, P a -> P b -> same a b -> ~ lt a b;
  cl_trans : forall a b c, P a -> P b -> P c -> lt a b -> lt b c -> lt a c;
  cl_left : forall a b c, P a -> P b -> P c -> same a b -> lt b c -> lt a c;
  cl_right : forall a b c, P a -> P b -> P c -> lt a b -> same b c -> lt a c;
  cl_total : forall a b, P a -> P b -> lt a b \/ same a b \/ lt b a }.
(** First by one thing, then by another *)
Definition next {A} (lt1 same1 lt2 : A -> A -> Prop) (a b : A) : Prop := lt1 a b \/ (same1 a b /\ lt2 a b).

Definition wf_bobj (b : bobj) : Prop := wf_binding (as_binding b).
Definition bobj_lt (a b : bobj) : Prop := binding_lt (as_binding a) (as_binding b).
Definition bobj_same (a b : bobj) : Prop := same_binding (as_binding a) (as_binding b).
Definition pair_lt (a b : bobj * bobj) : Prop := bobj_lt (fst a) (fst b) \/ (bobj_same (fst a) (fst b) /\ bobj_lt (snd a) (snd b)).
Definition pair_same (a b : bobj * bobj) : Prop := bobj_same (fst a) (fst b) /\ bobj_same (snd a) (snd b).
Definition tconf_lt (a b : tconf) : Prop := lex (conf_key a) (conf_key b).
Definition tconf_same (a b : tconf) : Prop := tc_space a = tc_space b /\ tc_pos a = tc_pos b.
(** Space, number of values, values, result, configuration *)
Definition eval_lt {E} (lt : E -> E -> Prop) (a b : eobj E) : Prop :=
  binding_lt (eo_binding a) (eo_binding b) \/
  (same_binding (eo_binding a) (eo_binding b) /\
   (eo_result a < eo_result b \/ (eo_result a = eo_result b /\ lt (eo_about a) (eo_about b)))).
Definition eval_same {E} (same : E -> E -> Prop) (a b : eobj E) : Prop :=
  same_binding (eo_binding a) (eo_binding b) /\ eo_result a = eo_result b /\ same (eo_about a) (eo_about b).
Definition wf_eval {E} (P : E -> Prop) (e : eobj E) : Prop := wf_binding (eo_binding e) /\ P (eo_about e).
(** Well formed, and one object if they have one address *)
Definition bobjs (a b : bobj) : Prop := wf_bobj a /\ wf_bobj b /\ (bo_id a = bo_id b -> a = b).
Definition pairs (a b : bobj * bobj) : Prop := bobjs (fst a) (fst b) /\ bobjs (snd a) (snd b).
Definition evals {E} (D : E -> E -> Prop) (a b : eobj E) : Prop :=
  wf_binding (eo_binding a) /\ wf_binding (eo_binding b) /\ (eo_id a = eo_id b -> a = b) /\ D (eo_about a) (eo_about b).

(** ** Hash *)
(** The parts that are hashed: the space, the number of values, the values, then [rest] *)
Definition parts_hash (jen : list Z -> Z) (b : binding) (rest : list Z) : Z :=
  fold_left hash_combine (jen (le_bytes 8 (lenZ (b_values b))) :: map (hash_datum jen) (b_values b) ++ rest) (jen (le_bytes 8 (b_context b))).

(** ** Serialisation *)
(** The handle of the space, the number of values, the values *)
Definition wire_binding (ctx : Z) (vals : list datum) (bs : list Z) : Prop :=
  exists lc ln vb, leb128 ctx lc /\ leb128 (lenZ vals) ln /\ wire_data vals vb /\ bs = lc ++ ln ++ vb.
Definition wire_bobj (ty : Z) (b : bobj) (bs : list Z) : Prop :=
  exists lh db ub, leb128 (bo_id b) lh /\ wire_binding (bo_ctx b) (bo_vals b) db /\ wire_blob (ud_bytes (bo_ud b)) ub /\
    bs = (ty :: lh) ++ db ++ ub.
Definition wire_pair (p : bobj * bobj) (bs : list Z) : Prop :=
  exists a b, wire_bobj 5 (fst p) a /\ wire_bobj 10 (snd p) b /\ bs = a ++ b.
Definition wire_eval {E} (ty : Z) (about : E -> list Z -> Prop) (e : eobj E) (bs : list Z) : Prop :=
  exists lh db ab rb ub, leb128 (eo_id e) lh /\ wire_binding (eo_ctx e) (eo_vals e) db /\ about (eo_about e) ab /\
    leb128 (zigzag (eo_result e)) rb /\ wire_blob (ud_bytes (eo_ud e)) ub /\
    bs = (ty :: lh) ++ db ++ ab ++ rb ++ ub.
(** Values of the kinds of the library, no NULL string; sizes that exist *)
Definition storable_values (l : list datum) : Prop :=
  Forall (fun d => wf_value (d_val d) /\ serialisable (d_val d)) l /\ lenZ l < 2 ^ 64.
Definition storable_bobj (b : bobj) : Prop :=
  in_unsigned 64 (bo_id b) /\ in_unsigned 64 (bo_ctx b) /\ storable_values (bo_vals b) /\ lenZ (ud_bytes (bo_ud b)) < 2 ^ 64.
Definition storable_pair (p : bobj * bobj) : Prop := storable_bobj (fst p) /\ storable_bobj (snd p).
Definition storable_eval {E} (about : E -> Prop) (e : eobj E) : Prop :=
  in_unsigned 64 (eo_id e) /\ in_unsigned 64 (eo_ctx e) /\ storable_values (eo_vals e) /\ about (eo_about e) /\
  in_signed 32 (eo_result e) /\ lenZ (ud_bytes (eo_ud e)) < 2 ^ 64.

(** ** What becomes of values [vals] in a space whose parameters are [A] *)
(** a value of the restored object: a handle is marked as one *)
Definition settled (d : datum) : datum :=
  mkDatum (d_val d) (match d_val d with VObject _ => FLAG_ID | _ => FLAG_DEFAULT end).
Section Heap.
  Variable heap : Z -> param.
  (** the strings are accepted by the parameters they are for *)
  Definition fits (A : list Z) (vals : list datum) : Prop :=
    forall i d s, nth_error vals i = Some d -> d_val d = VString s ->
      exists h, nth_error A i = Some h /\ domain (heap h) (VString s).
  Inductive settles (A : list Z) (vals : list datum) : res (list datum) -> Prop :=
  | no_values : vals = [] -> settles A vals (Ok (repeat ccs_none (length A)))
  | all_fit : vals <> [] -> length vals = length A -> fits A vals -> settles A vals (Ok (map settled vals))
  | other_number : vals <> [] -> length vals <> length A -> settles A vals (Err ERR_INVALID_VALUE)
  | misfit : vals <> [] -> length vals = length A -> ~ fits A vals -> settles A vals (Err ERR_INVALID_VALUE).
  (** What the original space became: [m] says that it is [space], of type [sty], whose
      parameters [A] were added to it one by one *)
  Variable jen : list Z -> Z.
  Definition becomes (space_at : Z -> option (Z * context)) (m : hmap) (old sty space : Z) (A : list Z) : Prop :=
    option_map d_val (m old) = Some (VObject space) /\
    exists c k nm l rs, space_at space = Some (sty, c) /\ (forall h, In h (map fst l) -> created jen (heap h)) /\
      add_run heap k (new_context nm) l = (rs, c) /\ c_params c = A.
End Heap.

(** ** Readers of the bytes [bs] *)
(** [r] is had, whatever follows; if [whole], not from less bytes *)
Definition gives {A} (de : rstate -> res (A * rstate)) (r : res A) (bs : list Z) (whole : Prop) : Prop :=
  match r with
  | Ok a =>
      (forall tl n, lenZ bs <= n <= lenZ (bs ++ tl) -> n < 2 ^ 64 -> de (mkR (bs ++ tl) n) = Ok (a, mkR tl (n - lenZ bs))) /\
      (whole -> forall p q tl, bs = p ++ q -> q <> [] -> lenZ p < 2 ^ 64 -> de (mkR (p ++ tl) (lenZ p)) = Err ERR_NOT_ENOUGH_DATA)
  | Err e => forall tl n, lenZ bs <= n <= lenZ (bs ++ tl) -> n < 2 ^ 64 -> de (mkR (bs ++ tl) n) = Err e
  | UB _ => False
  end.
(** the map where [h] stands for [id] *)
Definition recording (m : hmap) (h id : Z) : hmap := fun k => if k =? h then Some (ccs_object id) else m k.
Section Outcome.
  Variables (mem : Z -> bool) (heap : Z -> param) (jen : list Z -> Z) (space_at : Z -> option (Z * context)) (m : hmap).
  (** [mem]: the allocator gives so many bytes *)
  Definition granted (n : Z) : Prop := n <> 0 -> mem n = true.
  Definition refused_memory (n : Z) : Prop := n <> 0 /\ mem n = false.
  Definition unknown (h : Z) : Prop := forall o, option_map d_val (m h) <> Some (VObject o).
  (** the live spaces were made by adding parameters *)
  Definition spaces : Prop := forall space sty c, space_at space = Some (sty, c) ->
    exists k nm l rs, (forall h, In h (map fst l) -> created jen (heap h)) /\ add_run heap k (new_context nm) l = (rs, c).
  (** What is had of a configuration or features [b]: [keep], to be recorded; [id], the address
      of the new object; [sty], the type of the space. *)
  Inductive bobj_outcome (sty : Z) (keep : bool) (id : Z) (b : bobj) : res (bobj * hmap) -> Prop :=
  | bo_memory : refused_memory (16 * lenZ (bo_vals b)) -> bobj_outcome sty keep id b (Err ERR_OUT_OF_MEMORY)
  | bo_lost : granted (16 * lenZ (bo_vals b)) -> unknown (bo_ctx b) -> bobj_outcome sty keep id b (Err ERR_INVALID_HANDLE)
  | bo_wrong space : granted (16 * lenZ (bo_vals b)) -> option_map d_val (m (bo_ctx b)) = Some (VObject space) ->
      (forall c, space_at space <> Some (sty, c)) -> bobj_outcome sty keep id b (Err ERR_INVALID_OBJECT)
  | bo_misfit space A e : granted (16 * lenZ (bo_vals b)) -> becomes heap jen space_at m (bo_ctx b) sty space A ->
      settles heap A (bo_vals b) (Err e) -> bobj_outcome sty keep id b (Err e)
  | bo_again space A vs : granted (16 * lenZ (bo_vals b)) -> becomes heap jen space_at m (bo_ctx b) sty space A ->
      settles heap A (bo_vals b) (Ok vs) -> keep = true -> m (bo_id b) <> None -> bobj_outcome sty keep id b (Err ERR_DUPLICATE_HANDLE)
  | bo_had space A vs : granted (16 * lenZ (bo_vals b)) -> becomes heap jen space_at m (bo_ctx b) sty space A ->
      settles heap A (bo_vals b) (Ok vs) -> (keep = true -> m (bo_id b) = None) ->
      bobj_outcome sty keep id b (Ok (mkB id space vs (restored_ud (bo_ud b)), if keep then recording m (bo_id b) id else m)).
  (** What is had of what an evaluation is about, none of it recorded *)
  Inductive conf_outcome (cid : Z) (b : bobj) : res bobj -> Prop :=
  | co_fails e : bobj_outcome OT_CONFIGURATION_SPACE false cid b (Err e) -> conf_outcome cid b (Err e)
  | co_had b' : bobj_outcome OT_CONFIGURATION_SPACE false cid b (Ok (b', m)) -> conf_outcome cid b (Ok b').
  Inductive pair_outcome (cid fid : Z) (p : bobj * bobj) : res (bobj * bobj) -> Prop :=
  | po_first e : conf_outcome cid (fst p) (Err e) -> pair_outcome cid fid p (Err e)
  | po_second c e : conf_outcome cid (fst p) (Ok c) -> bobj_outcome OT_FEATURES_SPACE false fid (snd p) (Err e) -> pair_outcome cid fid p (Err e)
  | po_had c f : conf_outcome cid (fst p) (Ok c) -> bobj_outcome OT_FEATURES_SPACE false fid (snd p) (Ok (f, m)) -> pair_outcome cid fid p (Ok (c, f)).
  (** [is_space]: the tree spaces *)
  Inductive tconf_outcome (is_space : Z -> bool) (cid : Z) (t : tconf) : res tconf -> Prop :=
  | to_memory : refused_memory (8 * lenZ (tc_pos t)) -> tconf_outcome is_space cid t (Err ERR_OUT_OF_MEMORY)
  | to_lost : granted (8 * lenZ (tc_pos t)) -> unknown (tc_space t) -> tconf_outcome is_space cid t (Err ERR_INVALID_HANDLE)
  | to_wrong space : granted (8 * lenZ (tc_pos t)) -> option_map d_val (m (tc_space t)) = Some (VObject space) -> is_space space = false ->
      tconf_outcome is_space cid t (Err ERR_INVALID_OBJECT)
  | to_had space : granted (8 * lenZ (tc_pos t)) -> option_map d_val (m (tc_space t)) = Some (VObject space) -> is_space space = true ->
      tconf_outcome is_space cid t (Ok (mkConf cid space (tc_pos t) (restored_ud (tc_ud t)))).
  (** What is had of an evaluation *)
  Inductive eval_outcome {E} (about : E -> res E -> Prop) (keep : bool) (id : Z) (e : eobj E) : res (eobj E * hmap) -> Prop :=
  | eo_memory : refused_memory (16 * lenZ (eo_vals e)) -> eval_outcome about keep id e (Err ERR_OUT_OF_MEMORY)
  | eo_fails err : granted (16 * lenZ (eo_vals e)) -> about (eo_about e) (Err err) -> eval_outcome about keep id e (Err err)
  | eo_lost a : granted (16 * lenZ (eo_vals e)) -> about (eo_about e) (Ok a) -> unknown (eo_ctx e) -> eval_outcome about keep id e (Err ERR_INVALID_HANDLE)
  | eo_wrong a space : granted (16 * lenZ (eo_vals e)) -> about (eo_about e) (Ok a) -> option_map d_val (m (eo_ctx e)) = Some (VObject space) ->
      (forall c, space_at space <> Some (OT_OBJECTIVE_SPACE, c)) -> eval_outcome about keep id e (Err ERR_INVALID_OBJECT)
  | eo_misfit a space A err : granted (16 * lenZ (eo_vals e)) -> about (eo_about e) (Ok a) -> becomes heap jen space_at m (eo_ctx e) OT_OBJECTIVE_SPACE space A ->
      settles heap A (eo_vals e) (Err err) -> eval_outcome about keep id e (Err err)
  | eo_again a space A vs : granted (16 * lenZ (eo_vals e)) -> about (eo_about e) (Ok a) -> becomes heap jen space_at m (eo_ctx e) OT_OBJECTIVE_SPACE space A ->
      settles heap A (eo_vals e) (Ok vs) -> keep = true -> m (eo_id e) <> None -> eval_outcome about keep id e (Err ERR_DUPLICATE_HANDLE)
  | eo_had a space A vs : granted (16 * lenZ (eo_vals e)) -> about (eo_about e) (Ok a) -> becomes heap jen space_at m (eo_ctx e) OT_OBJECTIVE_SPACE space A ->
      settles heap A (eo_vals e) (Ok vs) -> (keep = true -> m (eo_id e) = None) ->
      eval_outcome about keep id e (Ok (mkE id space vs a (eo_result e) (restored_ud (eo_ud e)), if keep then recording m (eo_id e) id else m)).
End Outcome.
