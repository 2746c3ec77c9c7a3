(** Property C74: saving and restoring distributions. *)
From Coq Require Import ZArith List Bool Lia.
From Verif Require Import Base Datum CodecModel CodecSpec FloatModel FloatSpec IntervalModel ParamModel ExprModel DistModel DistSpec TreeConfModel RestoreSpec DistCodecModel DistCodecSpec DistCodecProofs DistCodecMore.
Import ListNotations.
Open Scope Z_scope.

(** C74: a distribution is saved in the announced number of bytes, and what reading gives is
    told by [dist_outcome]: *)
Theorem C74_distribution : forall le flog mem keep id m d, made flog d -> storable d ->
  exists bs, wire_dist d bs /\ encodes (ser_dist le d) bs /\ size_dist d = Ok (lenZ bs) /\
    forall r, dist_outcome mem keep id m d r -> gives (deser_dist le flog mem keep id m) r bs (no_data d).
Proof. exact dist_saved. Qed.
Print Assumptions C74_distribution.
(** there is always such an outcome; *)
Theorem C74_outcome : forall flog mem keep id m d, made flog d -> storable d ->
  exists r, dist_outcome mem keep id m d r /\ forall w, r <> UB w.
Proof. exact dist_some. Qed.
Print Assumptions C74_outcome.
(** a distribution comes back exactly if there is memory and its tables increase; *)
Theorem C74_restorable : forall mem d r, outcome mem d r -> (exists d', r = Ok d') <-> restorable d /\ room mem d.
Proof.
  exact (fun mem d r O => conj (fun H => match H with ex_intro _ d' E => outcome_restorable mem d d' (eq_ind r (outcome mem d) O (Ok d') E) end)
                               (fun H => restorable_outcome mem d r (proj1 H) (proj2 H) O)).
Qed.
Print Assumptions C74_restorable.
(** what comes back has the same dimension, data types and bounds, *)
Theorem C74_shape : forall flog mem d d', made flog d -> outcome mem d (Ok d') -> component_of d' = component_of d.
Proof. exact oc_component. Qed.
Print Assumptions C74_shape.
(** these being one type and one interval of that type for each dimension; *)
Theorem C74_says : forall flog d, made flog d -> says d (c_types (component_of d)) (c_bounds (component_of d)).
Proof. exact made_says. Qed.
Print Assumptions C74_says.
(** it is one that the constructors make, and can be saved and restored in turn. *)
Theorem C74_again : forall flog mem d d', made flog d -> storable d -> outcome mem d (Ok d') -> made flog d' /\ storable d' /\ restorable d'.
Proof. exact restored_again. Qed.
Print Assumptions C74_again.
(** The tables increase if the weights of a mixture have a finite sum, *)
Theorem C74_mixtures : forall cs weights m, Forall (fun a => 0 <= a < 2 ^ 64) weights -> length weights = length cs ->
  finite (total weights) -> create_mixture cs weights = Ok m -> sound (mx_table m).
Proof. exact mixture_sound. Qed.
Print Assumptions C74_mixtures.
(** and if those of a roulette have one of at most 2^1022. *)
Theorem C74_roulettes : forall areas table, weights_ok areas -> finite (total areas) -> scaled (total areas) <= 2 ^ 2096 ->
  is_roulette areas table -> sound table.
Proof. exact roulette_sound. Qed.
Print Assumptions C74_roulettes.
(** The bytes of another object are refused, *)
Theorem C74_other_type : forall le flog mem keep id m ty h lh, 0 <= ty < 128 -> in_unsigned 64 h -> leb128 h lh -> ty <> 1 ->
  gives (deser_dist le flog mem keep id m) (Err ERR_INVALID_TYPE) (ty :: lh) True.
Proof. exact other_object. Qed.
Print Assumptions C74_other_type.
(** and those of an unknown kind of distribution. *)
Theorem C74_other_kind : forall le flog mem keep id m h lh k, in_unsigned 64 h -> leb128 h lh -> 4 < k < 128 ->
  gives (deser_dist le flog mem keep id m) (Err ERR_UNSUPPORTED_OPERATION) ((1 :: lh) ++ [k]) True.
Proof. exact other_distribution. Qed.
Print Assumptions C74_other_kind.
(** A count of distributions whose array would not fit in 2^64 bytes is refused, whatever
    the memory. *)
Theorem C74_too_many : forall le flog mem keep id m h lh k n ln,
  in_unsigned 64 h -> leb128 h lh -> (k = 3 \/ k = 4) -> 2 ^ 61 <= n -> in_unsigned 64 n -> leb128 n ln ->
  gives (deser_dist le flog mem keep id m) (Err ERR_OUT_OF_MEMORY) ((1 :: lh) ++ k :: ln) True.
Proof. exact too_many. Qed.
Print Assumptions C74_too_many.

(** Examples: a multivariate distribution over a mixture, of an integer uniform and a normal
    distribution, and a roulette of the weights 1, 2, 1 *)
Definition dc_flog (x : Z) : Z := x.
Definition dc_one := 0x3ff0000000000000.
Definition dc_two := 0x4000000000000000.
Definition dc_five := 0x4014000000000000.
Definition dc_uniform : cdist := CUniform (mkObj 11 None) (mkUniform NUM_INT (-3) 9 SCALE_LINEAR 2 true 0 6).
Definition dc_normal : cdist := CNormal (mkObj 12 (Some [7])) (mkNormal NUM_INT dc_one dc_two SCALE_LOGARITHMIC 0 false).
Definition dc_mixture : cdist :=
  match make_mixture 13 [dc_uniform; dc_normal] [dc_one; dc_two] with Ok d => d | _ => dc_uniform end.
Definition dc_roulette (areas : list Z) : cdist := CRoulette (mkObj 14 None) match create_roulette areas with Ok t => t | _ => [] end.
Definition dc_multi : cdist :=
  match make_multi 15 [dc_mixture; dc_roulette [dc_one; dc_two; dc_one]] with Ok d => set_dobj d (mkObj 15 (Some [1; 2])) | _ => dc_uniform end.
Definition dc_bytes (d : cdist) : list Z := match ser_dist true d (mkW [] (repeat 0 200) 200) with Ok w => w_done w | _ => [] end.
Definition dc_read (mem : Z -> bool) (m : hmap) (bs : list Z) := deser_dist true dc_flog mem true 77 m (mkR bs (lenZ bs)).
Definition dc_none : hmap := fun _ => None.
Lemma dc_made_uniform : made dc_flog dc_uniform.
Proof. apply (made_uniform dc_flog _ NUM_INT (-3) 9 SCALE_LINEAR 2); try (cbn; unfold in_signed; lia). vm_compute. reflexivity. Qed.
Lemma dc_made_normal : made dc_flog dc_normal.
Proof. apply (made_normal dc_flog _ NUM_INT dc_one dc_two SCALE_LOGARITHMIC 0); try (unfold dc_one, dc_two, number; cbn; unfold in_signed; lia). vm_compute. reflexivity. Qed.
Lemma dc_made_roulette areas table : Forall (fun a => 0 <= a < 2 ^ 64) areas -> create_roulette areas = Ok table -> made dc_flog (dc_roulette areas).
Proof. intros P C. unfold dc_roulette. rewrite C. eapply made_roulette; eassumption. Qed.
Lemma dc_made : made dc_flog dc_multi.
Proof.
  change dc_multi with (match dc_multi with CMulti o ty b ds => CMulti o ty b ds | d => d end). cbv [dc_multi make_multi make_mixture]. cbn [set_dobj].
  assert (M : made dc_flog dc_mixture).
  { unfold dc_mixture. destruct (make_mixture 13 _ _) as [d| |] eqn:E; [|vm_compute in E; discriminate|vm_compute in E; discriminate].
    destruct (make_mixture_inv _ _ _ _ E) as (m & C & ->). apply (made_mixture dc_flog _ _ _ _ _ [dc_one; dc_two]); auto.
    - repeat constructor; [apply dc_made_uniform|apply dc_made_normal].
    - repeat constructor; unfold dc_one, dc_two; lia. }
  apply made_multi; [|reflexivity]. constructor; [exact M|]. constructor; [|constructor].
  eapply dc_made_roulette; [|vm_compute; reflexivity]. repeat constructor; unfold dc_one, dc_two; lia.
Qed.
Example C74_ex : made dc_flog dc_multi /\ storable dc_multi /\ restorable dc_multi /\
  (match dc_read (fun n => n <=? 24) dc_none (dc_bytes dc_multi) with
   | Ok ((d, m), s) => d = set_dobj dc_multi (mkObj 77 (Some [1; 2])) /\ m 15 = Some (ccs_object 77) /\ m 13 = None /\ r_mem s = []
   | _ => False end) /\
  dc_read (fun n => n <=? 16) dc_none (dc_bytes dc_multi) = Err ERR_OUT_OF_MEMORY /\
  dc_read (fun _ => true) (fun _ => Some (ccs_object 3)) (dc_bytes dc_multi) = Err ERR_DUPLICATE_HANDLE.
Proof.
  split; [exact dc_made|]. split.
  { let v := eval vm_compute in dc_multi in change dc_multi with v.
    repeat match goal with
    | |- storable _ => apply storable_dist; cbn [dobj_of parts tables o_id o_ud]
    | |- Forall _ _ => constructor
    | |- in_unsigned _ _ => split; lia
    | |- _ => vm_compute; first [reflexivity|discriminate]
    end. }
  split.
  { assert (S1 : sound [0; 4599676419421066581; dc_one]).
    { split; [repeat constructor|]. intros [|[|[|i]]] a b; cbn; intros E1 E2; try discriminate; try (destruct i; discriminate); injection E1 as <-; injection E2 as <-; vm_compute; discriminate. }
    assert (S2 : sound [0; 4598175219545276416; 4604930618986332160; dc_one]).
    { split; [repeat constructor|]. intros [|[|[|[|i]]]] a b; cbn; intros E1 E2; try discriminate; try (destruct i; discriminate); injection E1 as <-; injection E2 as <-; vm_compute; discriminate. }
    let v := eval vm_compute in dc_multi in change dc_multi with v.
    constructor; [constructor|]. constructor; [|constructor; [|constructor]].
    - constructor; [|repeat constructor]. constructor; [exact S1|constructor].
    - constructor; [|repeat constructor]. constructor; [exact S2|constructor]. }
  split; [vm_compute; repeat split|]. split; vm_compute; reflexivity.
Qed.
(** A roulette need not come back bit for bit, and then a draw may give another index: the
    weights 1, 5, 1. *)
Theorem C74_exact_refuted : exists areas t t' u, create_roulette areas = Ok t /\
  (exists m s, dc_read (fun _ => true) dc_none (dc_bytes (CRoulette (mkObj 14 None) t)) = Ok ((CRoulette (mkObj 77 None) t', m), s)) /\
  t' <> t /\ unit_draw u /\ roulette_value t u = Ok 1 /\ roulette_value t' u = Ok 0.
Proof.
  exists [dc_one; dc_five; dc_one], [0; 4594314991293244562; 4605895676049340123; dc_one], [0; 4594314991293244563; 4605895676049340124; dc_one], 4594314991293244562.
  split; [vm_compute; reflexivity|]. split; [do 2 eexists; vm_compute; reflexivity|]. split; [discriminate|]. split; [|split; vm_compute; reflexivity].
  split; [lia|]. split; [reflexivity|]. vm_compute. split; [discriminate|reflexivity].
Qed.
Print Assumptions C74_exact_refuted.
(** A roulette or a mixture with an infinite weight can be made and saved, but not restored;
    neither can a roulette whose sum exceeds 2^1022 by enough for a cell to exceed 1. *)
Theorem C74_restored_refuted : (exists areas t, create_roulette areas = Ok t /\ In PLUS_INF areas /\
    dc_read (fun _ => true) dc_none (dc_bytes (CRoulette (mkObj 14 None) t)) = Err ERR_INVALID_VALUE) /\
  (exists weights d, make_mixture 13 [dc_uniform; dc_normal] weights = Ok d /\ In PLUS_INF weights /\
    dc_read (fun _ => true) dc_none (dc_bytes d) = Err ERR_INVALID_VALUE) /\
  exists areas t, create_roulette areas = Ok t /\ finite (total areas) /\
    dc_read (fun _ => true) dc_none (dc_bytes (CRoulette (mkObj 14 None) t)) = Err ERR_INVALID_VALUE.
Proof.
  split; [|split].
  - exists [PLUS_INF; dc_one]. eexists. split; [vm_compute; reflexivity|]. split; [now left|vm_compute; reflexivity].
  - exists [PLUS_INF; dc_one]. eexists. split; [vm_compute; reflexivity|]. split; [now left|vm_compute; reflexivity].
  - exists [0x7fe0000000000001; 0; 0]. eexists. split; [vm_compute; reflexivity|]. split; vm_compute; reflexivity.
Qed.
Print Assumptions C74_restored_refuted.
