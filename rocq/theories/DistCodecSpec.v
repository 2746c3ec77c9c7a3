(** What distributions as objects promise: normal and multivariate ones, saving, restoring. *)
From Coq Require Import ZArith List Bool.
From Verif Require Import Base Datum CodecModel CodecSpec FloatModel FloatSpec IntervalModel IntervalSpec ExprModel DistModel DistSpec TreeCodecSpec TreeConfModel RestoreSpec DistCodecModel.
Import ListNotations.
Open Scope Z_scope.

(** ** Numbers of a type *)
Definition number (t v : Z) : Prop := if t =? NUM_FLOAT then 0 <= v < 2 ^ 64 else in_signed 64 v.
Definition wire_number (t v : Z) (bs : list Z) : Prop := if t =? NUM_FLOAT then bs = word 8 v else leb128 (zigzag v) bs.

(** ** Normal distributions *)
(** a step that is 0 or positive, not NaN unless a double *)
Definition step_ok (t quant : Z) : Prop := if t =? NUM_FLOAT then ~ klt (fkey quant) (fkey 0) else 0 <= quant.
Definition steps (t quant : Z) : Prop := if t =? NUM_FLOAT then ~ keq (fkey quant) (fkey 0) else quant <> 0.
(** The integers that a normal distribution may give: multiples of the step within 64 bits,
    positive ones if the scale is logarithmic *)
Definition normal_int (scale quant x : Z) : Prop :=
  in_signed 64 x /\ (scale = SCALE_LOGARITHMIC -> 0 < x) /\ exists k, x = k * (if quant =? 0 then 1 else quant).

(** ** Distributions as objects *)
Definition parts (d : cdist) : list cdist := match d with CMixture _ _ _ _ ds => ds | CMulti _ _ _ ds => ds | _ => [] end.
Definition tables (d : cdist) : list (list Z) := match d with CRoulette _ t => [t] | CMixture _ _ _ t _ => [t] | _ => [] end.
(** made by the constructors *)
Inductive made (flog : Z -> Z) : cdist -> Prop :=
| made_uniform o t lower upper scale quant u : number t lower -> number t upper -> number t quant ->
    create_uniform flog t lower upper scale quant = Ok u -> made flog (CUniform o u)
| made_normal o t mu sigma scale quant n : 0 <= mu < 2 ^ 64 -> 0 <= sigma < 2 ^ 64 -> number t quant ->
    create_normal t mu sigma scale quant = Ok n -> made flog (CNormal o n)
| made_roulette o areas table : Forall (fun a => 0 <= a < 2 ^ 64) areas -> create_roulette areas = Ok table -> made flog (CRoulette o table)
| made_mixture o types bounds table ds weights : Forall (made flog) ds -> length weights = length ds ->
    Forall (fun a => 0 <= a < 2 ^ 64) weights ->
    make_mixture (o_id o) ds weights = Ok (CMixture (mkObj (o_id o) None) types bounds table ds) -> made flog (CMixture o types bounds table ds)
| made_multi o types bounds ds : Forall (made flog) ds ->
    make_multi (o_id o) ds = Ok (CMulti (mkObj (o_id o) None) types bounds ds) -> made flog (CMulti o types bounds ds).
(** addresses and sizes that a 64 bit machine can have *)
Inductive storable : cdist -> Prop :=
| storable_dist d : in_unsigned 64 (o_id (dobj_of d)) -> lenZ (ud_bytes (o_ud (dobj_of d))) < 2 ^ 64 -> lenZ (parts d) <= 2 ^ 60 ->
    Forall (fun t => lenZ t <= 2 ^ 60) (tables d) -> Forall storable (parts d) -> storable d.
Inductive no_data : cdist -> Prop :=
| no_data_dist d : ud_bytes (o_ud (dobj_of d)) = [] -> Forall no_data (parts d) -> no_data d.

(** ** What is written *)
(** object type and handle, type of distribution, then *)
Inductive wire_body : cdist -> list Z -> Prop :=
| wire_body_ d lh rest : leb128 (o_id (dobj_of d)) lh -> wire_data d rest -> wire_body d ((1 :: lh) ++ [dtype_of d] ++ rest)
with wire_data : cdist -> list Z -> Prop :=
| wire_uniform o u a b c : wire_number (u_type u) (u_lower u) a -> wire_number (u_type u) (u_upper u) b -> wire_number (u_type u) (u_quant u) c ->
    wire_data (CUniform o u) ([u_type u] ++ [u_scale u] ++ a ++ b ++ c)
| wire_normal o n a : wire_number (n_type n) (n_quant n) a ->
    wire_data (CNormal o n) ([n_type n] ++ [n_scale n] ++ word 8 (n_mu n) ++ word 8 (n_sigma n) ++ a)
| wire_roulette o t n : leb128 (lenZ t - 1) n -> wire_data (CRoulette o t) (n ++ flat_map (word 8) (differences t))
| wire_mixture o types bounds t ds n rest : leb128 (lenZ ds) n -> wire_weighted (differences t) ds rest -> wire_data (CMixture o types bounds t ds) (n ++ rest)
| wire_multi o types bounds ds n rest : leb128 (lenZ ds) n -> wire_parts ds rest -> wire_data (CMulti o types bounds ds) (n ++ rest)
(** a distribution inside another is followed by its user data *)
with wire_dist : cdist -> list Z -> Prop :=
| wire_dist_ d a b : wire_body d a -> wire_blob (ud_bytes (o_ud (dobj_of d))) b -> wire_dist d (a ++ b)
with wire_weighted : list Z -> list cdist -> list Z -> Prop :=
| ww_nil : wire_weighted [] [] []
| ww_cons w ws d ds a b : wire_dist d a -> wire_weighted ws ds b -> wire_weighted (w :: ws) (d :: ds) (word 8 w ++ a ++ b)
with wire_parts : list cdist -> list Z -> Prop :=
| wp_nil : wire_parts [] []
| wp_cons d ds a b : wire_dist d a -> wire_parts ds b -> wire_parts (d :: ds) (a ++ b).

(** ** What is had of it *)
(** A table of numbers that increase *)
Definition sound (table : list Z) : Prop := Forall finite table /\ increasing table.
Definition back (o : xobj) : xobj := mkObj (o_id o) (restored_ud (o_ud o)).
Section Outcome.
  (** [mem]: the allocator gives so many bytes *)
  Variable mem : Z -> bool.
  (** The distribution restored (named after the original, and so are those inside), or the
      error. The table of a roulette is computed again from the differences of its cells. *)
  Inductive outcome : cdist -> res cdist -> Prop :=
  | oc_uniform o u : outcome (CUniform o u) (Ok (CUniform (back o) u))
  | oc_normal o n : outcome (CNormal o n) (Ok (CNormal (back o) n))
  | oc_roulette_memory o t : mem (8 * (lenZ t - 1)) = false -> outcome (CRoulette o t) (Err ERR_OUT_OF_MEMORY)
  | oc_roulette_lost o t : mem (8 * (lenZ t - 1)) = true -> ~ sound t -> outcome (CRoulette o t) (Err ERR_INVALID_VALUE)
  | oc_roulette o t t' : mem (8 * (lenZ t - 1)) = true -> sound t -> is_roulette (differences t) t' -> outcome (CRoulette o t) (Ok (CRoulette (back o) t'))
  | oc_mixture_memory o types bounds t ds : mem (8 * lenZ ds) = false -> outcome (CMixture o types bounds t ds) (Err ERR_OUT_OF_MEMORY)
  | oc_mixture_part o types bounds t ds e : mem (8 * lenZ ds) = true -> parts_fail ds e -> outcome (CMixture o types bounds t ds) (Err e)
  | oc_mixture_lost o types bounds t ds ds' : mem (8 * lenZ ds) = true -> parts_had ds ds' -> ~ sound t ->
      outcome (CMixture o types bounds t ds) (Err ERR_INVALID_VALUE)
  | oc_mixture o types bounds t ds ds' : mem (8 * lenZ ds) = true -> parts_had ds ds' -> sound t ->
      outcome (CMixture o types bounds t ds) (Ok (CMixture (back o) types bounds t ds'))
  | oc_multi_memory o types bounds ds : mem (8 * lenZ ds) = false -> outcome (CMulti o types bounds ds) (Err ERR_OUT_OF_MEMORY)
  | oc_multi_part o types bounds ds e : mem (8 * lenZ ds) = true -> parts_fail ds e -> outcome (CMulti o types bounds ds) (Err e)
  | oc_multi o types bounds ds ds' : mem (8 * lenZ ds) = true -> parts_had ds ds' -> outcome (CMulti o types bounds ds) (Ok (CMulti (back o) types bounds ds'))
  (** all parts are had, or the first that fails tells *)
  with parts_had : list cdist -> list cdist -> Prop :=
  | ph_nil : parts_had [] []
  | ph_cons d ds d' ds' : outcome d (Ok d') -> parts_had ds ds' -> parts_had (d :: ds) (d' :: ds')
  with parts_fail : list cdist -> Z -> Prop :=
  | pf_now d ds e : outcome d (Err e) -> parts_fail (d :: ds) e
  | pf_later d ds d' e : outcome d (Ok d') -> parts_fail ds e -> parts_fail (d :: ds) e.
  (** The outermost distribution becomes the object [id] and, if [keep], is recorded. *)
  Inductive dist_outcome (keep : bool) (id : Z) (m : hmap) (d : cdist) : res (cdist * hmap) -> Prop :=
  | do_fails e : outcome d (Err e) -> dist_outcome keep id m d (Err e)
  | do_again d' : outcome d (Ok d') -> keep = true -> m (o_id (dobj_of d)) <> None -> dist_outcome keep id m d (Err ERR_DUPLICATE_HANDLE)
  | do_had d' : outcome d (Ok d') -> (keep = true -> m (o_id (dobj_of d)) = None) ->
      dist_outcome keep id m d (Ok (set_dobj d' (mkObj id (restored_ud (o_ud (dobj_of d)))), if keep then recording m (o_id (dobj_of d)) id else m)).
  (** The memory for the arrays *)
  Inductive room : cdist -> Prop :=
  | room_dist d : match d with CRoulette _ t => mem (8 * (lenZ t - 1)) = true | CMixture _ _ _ _ ds | CMulti _ _ _ ds => mem (8 * lenZ ds) = true | _ => True end ->
      Forall room (parts d) -> room d.
End Outcome.
(** All tables are sound *)
Inductive restorable : cdist -> Prop :=
| restorable_dist d : Forall sound (tables d) -> Forall restorable (parts d) -> restorable d.
(** ** What distributions say of their values *)
(** one type and one interval of that type for each dimension *)
Definition typed (types : list Z) (bounds : list interval) : Prop :=
  length bounds = length types /\ Forall2 (fun t i => i_type i = t /\ (t = NUM_FLOAT \/ t = NUM_INT)) types bounds.
Definition says (d : cdist) (types : list Z) (bounds : list interval) : Prop :=
  typed types bounds /\
  match d with
  | CUniform _ u => types = [u_type u] /\ forall i v, In i bounds -> member i v <-> kle (pos (u_type u) (u_lower u)) (pos (u_type u) v) /\ klt (pos (u_type u) v) (pos (u_type u) (u_upper u))
  | CNormal _ n => types = [n_type n]
  | CRoulette _ t => types = [NUM_INT] /\ forall i v, In i bounds -> member i v <-> 0 <= v < lenZ t - 1
  | CMixture _ _ _ _ ds => Forall (fun p => c_types (component_of p) = types) ds /\
      (Forall ok_component (map component_of ds) -> forall j l, bounds_at (map component_of ds) j l -> exists i, nth_error bounds j = Some i /\ joined l i)
  | CMulti _ _ _ ds => types = concat (map (fun p => c_types (component_of p)) ds) /\ bounds = concat (map (fun p => c_bounds (component_of p)) ds)
  end.
